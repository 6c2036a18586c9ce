(** * The WebSocket handshake (RFC 6455, section 4) *)
Require Import List Arith NArith Bool Ascii String.
Require Import Verif.Base Verif.StrSpec Verif.DigestSpec Verif.Base64Spec Verif.HttpModel Verif.HttpSpec.
Import List ListNotations.
Open Scope list_scope.
Open Scope N_scope.

(** The answer to a key: the SHA-1 digest of the key and a fixed identifier, in base 64. *)
Definition accept (key : HttpModel.bytes) : HttpModel.bytes := b64_spec (sha1 (key ++ text "258EAFA5-E914-47DA-95CA-C5AB0DC85B11")).

(** A key made from 16 random bytes. *)
Definition nonce (r : N * N * N * N) : list N :=
  let '(a, b, c, d) := r in concat (map (fun x => map (fun k => x / 2 ^ k mod 256) [24; 16; 8; 0]) [a; b; c; d]).

(** Fields a program may add: text that HTTP can carry, with names that the handshake does not use, in whatever spelling. *)
Definition extra (reserved : list string) (fs : list (HttpModel.bytes * HttpModel.bytes)) : Prop :=
  Forall (fun f => good_field (fst f, Some (snd f)) /\ ~ In 0 (fst f) /\ forall r, In r reserved -> ~ spelled (text r) (fst f)) fs.
(** How many bytes they have. *)
Definition amount (fs : list (HttpModel.bytes * HttpModel.bytes)) : N := N.of_nat (length (concat (map (fun f => snd f ++ [44]) fs))).

(** The part of an offered extension in front of its parameters, and the answer to a list of offers. *)
Definition first_part (p q : HttpModel.bytes) : Prop := ~ In 59 q /\ (p = q \/ exists r, p = q ++ 59 :: r).
Definition offered (v a : HttpModel.bytes) : Prop :=
  exists ps qs, runs (fun c => In c [44]) v ps /\ ps <> [] /\ Forall2 first_part ps qs /\ a = commas qs.
(** A value that text can carry. *)
Definition good_value (v : HttpModel.bytes) : Prop := starts_dark v /\ ~ In 10 v.
(** No two names are the same word. *)
Definition distinct (fs : list (HttpModel.bytes * HttpModel.bytes)) : Prop := ForallOrdPairs (fun f g => ~ spelled (fst f) (fst g)) fs.
(** Names that the two sides use themselves. *)
Definition client_names : list string := ["Sec-WebSocket-Key"; "Upgrade"; "Connection"; "Sec-WebSocket-Version"]%string.
Definition server_names : list string := ["Sec-WebSocket-Accept"; "Upgrade"; "Connection"]%string.
