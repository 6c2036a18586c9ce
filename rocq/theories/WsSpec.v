(** WebSocket frames after RFC 6455, section 5.2. *)
Require Import List NArith Bool.
Import ListNotations.
Require Import Verif.Base Verif.EndianSpec Verif.EndianProofs Verif.WsModel.
Local Open Scope N_scope.

(** A frame: flags, opcode, the four bytes of the masking key if there is one, and
    the payload before masking. *)
Record frame := F { f_fin : bool; f_rsv1 : bool; f_rsv2 : bool; f_rsv3 : bool;
  f_op : N; f_key : option (list N); f_payload : list N }.
Definition wf_frame (f : frame) : Prop :=
  f_op f < 16 /\ bytes (f_payload f) /\
  match f_key f with None => True | Some k => length k = 4%nat /\ bytes k end.

Definition bit (b : bool) (v : N) : N := if b then v else 0.
(** Byte number [i] of the payload is combined with byte [i mod 4] of the key. *)
Definition masked (k : option (list N)) (l : list N) : list N :=
  match k with
  | None => l
  | Some k => map (fun ib => N.lxor (snd ib) (nth (Nat.modulo (fst ib) 4) k 0)) (combine (seq 0 (length l)) l)
  end.

(** The length: the seven bits of the second byte, and the bytes behind them. *)
Inductive len_field (n : N) : N -> list N -> Prop :=
  | len_short : n < 126 -> len_field n n []
  | len_16 : n < 2 ^ 16 -> len_field n 126 (be_bytes 2 n)
  | len_64 : n < 2 ^ 64 -> len_field n 127 (be_bytes 8 n).
(** The shortest. *)
Definition short_len (n : N) : N * list N :=
  if n <? 126 then (n, []) else if n <? 2 ^ 16 then (126, be_bytes 2 n) else (127, be_bytes 8 n).

(** The status code stands in front of the payload of a closing frame. *)
Definition status_len (f : frame) : nat :=
  if (f_op f =? 8) && Nat.leb 2 (length (f_payload f)) then 2%nat else 0%nat.

(** The bytes of a frame, field by field. *)
Definition fields (f : frame) (len : N * list N) : list (list N) :=
  let body := masked (f_key f) (f_payload f) in
  [ [bit (f_fin f) 128 + bit (f_rsv1 f) 64 + bit (f_rsv2 f) 32 + bit (f_rsv3 f) 16 + f_op f];
    [bit (match f_key f with None => false | Some _ => true end) 128 + fst len];
    snd len;
    match f_key f with None => [] | Some k => k end;
    firstn (status_len f) body;
    skipn (status_len f) body ].

(** The frame as it is to be sent. *)
Definition frame_bytes (f : frame) : list N :=
  concat (fields f (short_len (N.of_nat (length (f_payload f))))).

(** The frame an object describes. *)
Definition frame_of (w : ws) : frame :=
  let c := match content w with None => [] | Some l => l end in
  F (fin w) (rsv1 w) (rsv2 w) (rsv3 w) (opcode w)
    (if mask w then Some (be_bytes 4 (key w)) else None)
    (if opcode w =? 8 then be_bytes 2 (status w) ++ c else c).
(** Objects in order: the content as long as stated, every field in its range. *)
Definition wf_ws (w : ws) : Prop :=
  clen w = N.of_nat (length (match content w with None => [] | Some l => l end)) /\
  bytes (match content w with None => [] | Some l => l end) /\
  opcode w < 16 /\ status w < 2 ^ 16 /\ key w < 2 ^ 32.

(** What an object is to say after a frame is received: without payload there is no
    content, and the status is not touched. *)
Definition received (w : ws) (f : frame) : ws :=
  let p := f_payload f in
  W (match p with [] => None | _ => Some (skipn (status_len f) p) end)
    (N.of_nat (length (skipn (status_len f) p)))
    (f_fin f) (f_rsv1 f) (f_rsv2 f) (f_rsv3 f) (f_op f)
    (match f_key f with None => false | Some _ => true end)
    (match p with [] => status w | _ => be_value (firstn (status_len f) p) end)
    (match f_key f with None => 0 | Some k => be_value k end).

(** The frames that the parser gets right: not a masked closing frame whose status is
    the first half of the key, nor an empty one on top of an earlier status. *)
Definition status_ok (w : ws) (f : frame) : Prop :=
  match f_key f with
  | Some k => f_op f = 8 ->
      match f_payload f with
      | [] => status w = 0
      | p => firstn (status_len f) p <> firstn 2 k
      end
  | None => True
  end.

(** The fields lie in a chain of buffers, none of them cut, empty buffers anywhere;
    [rest] is the chain behind them. *)
Inductive laid : list (list N) -> list (list N) -> list (list N) -> Prop :=
  | laid_nil bufs : laid [] bufs bufs
  | laid_none fs bufs rest : laid fs bufs rest -> laid ([] :: fs) bufs rest
  | laid_field f fs k b t rest : f <> [] -> laid fs (b :: t) rest ->
      laid (f :: fs) (repeat [] k ++ (f ++ b) :: t) rest.

(** Parsing frame after frame. *)
Fixpoint parse_all (n : nat) (w : ws) (bufs : list (list N)) : option (list ws) :=
  match bufs with
  | [] => Some []
  | _ =>
      match n with
      | O => None
      | S n' =>
          match parse w bufs with
          | POk w' bufs' => match parse_all n' w' bufs' with Some l => Some (w' :: l) | None => None end
          | _ => None
          end
      end
  end.

(** What a list of frames, received one after the other, leaves in the object. *)
Inductive receives : ws -> list frame -> list ws -> Prop :=
  | receives_nil w : receives w [] []
  | receives_cons w f fs l : wf_frame f -> N.of_nat (length (f_payload f)) < 2 ^ 16 -> status_ok w f ->
      receives (received w f) fs l -> receives w (f :: fs) (received w f :: l).

(** Control frames: close, ping, pong. *)
Definition control (op : N) : bool := (op =? 8) || (op =? 9) || (op =? 10).
