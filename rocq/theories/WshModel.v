(** Model of the handshake in src/mln_websocket.c.  The HTTP object, the digest and the encoding are those of [HttpModel], [DigestModel] and
    [Base64Model].  Allocations succeed; the fields of a WebSocket object are the list of the entries of their hash table, as in [HttpModel].
    [None] is undefined behaviour. *)
Require Import List Arith NArith Bool Ascii String.
Require Import Verif.Base Verif.StrModel Verif.DigestModel Verif.Base64Model Verif.HttpModel.
Import List ListNotations.
Open Scope list_scope.
Open Scope N_scope.

(** include/mln_websocket.h:18-22; the error -1 is written 4 *)
Definition WS_OK : N := 0.
Definition WS_FAILED : N := 1.
Definition WS_NOTWS : N := 2.
Definition WS_ERROR : N := 4.

(** include/mln_websocket.h:58-86: the part of [mln_websocket_t] the handshake uses. *)
Record wsock := mkW { w_http : http; w_fields : list (HttpModel.bytes * HttpModel.bytes); w_uri : option HttpModel.bytes; w_args : option HttpModel.bytes; w_key : option HttpModel.bytes }.

(** src/mln_websocket.c:30-62 mln_websocket_init *)
Definition ws_init (h : http) : wsock := mkW h [] None None None.

(** src/mln_websocket.c:64-80 mln_websocket_hash_calc, mln_websocket_hash_cmp *)
Definition ws_hash (k : HttpModel.bytes) : N := fold_left (fun i c => (i + c * 3) mod 2 ^ 64) k 0 mod 37.
Definition ws_same (k k' : HttpModel.bytes) : bool := (ws_hash k =? ws_hash k') && casecmp k k'.
(** src/mln_websocket.c:205-221 mln_websocket_set_field; 223-227 mln_websocket_get_field *)
Fixpoint ws_replace (l : list (HttpModel.bytes * HttpModel.bytes)) (k v : HttpModel.bytes) : list (HttpModel.bytes * HttpModel.bytes) :=
  match l with
  | [] => [(k, v)]
  | e :: r => if ws_same k (fst e) then (k, v) :: r else e :: ws_replace r k v
  end.
Definition ws_set_field (w : wsock) (k v : HttpModel.bytes) : wsock := mkW (w_http w) (ws_replace (w_fields w) k v) (w_uri w) (w_args w) (w_key w).
Definition ws_get_field (w : wsock) (k : HttpModel.bytes) : option HttpModel.bytes := option_map snd (find (fun e => ws_same k (fst e)) (w_fields w)).

Definition n_upgrade := text "Upgrade".
Definition n_websocket := text "websocket".
Definition n_connection := text "Connection".
Definition n_accept := text "Sec-WebSocket-Accept".
Definition n_key := text "Sec-WebSocket-Key".
Definition n_version := text "Sec-WebSocket-Version".
Definition n_protocol := text "Sec-WebSocket-Protocol".
Definition n_extensions := text "Sec-WebSocket-Extensions".
Definition guid := text "258EAFA5-E914-47DA-95CA-C5AB0DC85B11".

(** src/mln_websocket.c:148-155 mln_websocket_is_websocket *)
Definition is_websocket (h : http) : N :=
  match field_get h n_upgrade with
  | None => WS_NOTWS
  | Some v => if casecmp n_websocket v then if type h =? REQUEST then WS_OK else WS_ERROR else WS_NOTWS
  end.

(** src/mln_websocket.c:186-198 and 388-399: the digest of key and GUID in base 64. *)
Definition accept_of (key : HttpModel.bytes) : option HttpModel.bytes :=
  c <- sha1_calc (sha1_init (repeat 0 64)) (key ++ guid) true ;;
  t <- sha1_tobytes c (repeat 0 20) 20 ;;
  r <- b64_encode t ;;
  Some (firstn (snd r) (fst r)).

(** src/mln_websocket.c:177-203 mln_websocket_validate_accept: a key that was never set is read through. *)
Definition validate_accept (h : http) (key : option HttpModel.bytes) : option N :=
  match field_get h n_accept with
  | None => Some WS_NOTWS
  | Some v => key <- key ;; a <- accept_of key ;; Some (if casecmp a v then WS_OK else WS_ERROR)
  end.
(** src/mln_websocket.c:157-175 mln_websocket_validate *)
Definition ws_validate (w : wsock) : option N :=
  let h := w_http w in
  if negb (status h =? 101) then Some WS_NOTWS
  else match field_get h n_upgrade with
  | None => Some WS_NOTWS
  | Some u =>
      if negb (casecmp u n_websocket) then Some WS_NOTWS
      else match field_get h n_connection with
      | None => Some WS_NOTWS
      | Some c =>
          if negb (casecmp c n_upgrade) then Some WS_NOTWS
          else
            ret <- validate_accept h (w_key w) ;;
            if negb (ret =? WS_OK) then Some ret
            else if negb (type h =? RESPONSE) then Some WS_ERROR else Some WS_OK
      end
  end.

(** src/mln_websocket.c:374-378 mln_websocket_iterate_set_fields, called for every entry *)
Fixpoint set_all (h : http) (l : list (HttpModel.bytes * HttpModel.bytes)) : option http :=
  match l with [] => Some h | (k, v) :: r => h <- field_set h k (Some v) ;; set_all h r end.

(** src/mln_websocket.c:324-372 mln_websocket_extension_tokens: strchr stops at a null byte; the buffer asked for has no byte for the comma
    behind the last token. [room] is how many bytes the allocator gives beyond what was asked for. The outer option is undefined behaviour. *)
Fixpoint before_semicolon (p : list N) : option (list N) :=
  match p with
  | [] => None
  | c :: r => if c =? 0 then None else if c =? 59 then Some [] else option_map (cons c) (before_semicolon r)
  end.
Definition token (p : list N) : list N := match before_semicolon p with Some q => q | None => p end.
Definition extension_tokens (room : N) (v : HttpModel.bytes) : option (option HttpModel.bytes) :=
  ps <- slice v [44] ;;
  match ps with
  | [] => Some None
  | _ => if room =? 0 then None else Some (Some (removelast (concat (map (fun p => token p ++ [44]) ps))))
  end.

(** src/mln_websocket.c:380-403 mln_websocket_accept_field: a missing key is read through. *)
Definition accept_field (h : http) : option HttpModel.bytes := key <- field_get h n_key ;; accept_of key.

Definition set_some (h : http) (k : HttpModel.bytes) (v : option HttpModel.bytes) : option http :=
  match v with Some v => field_set h k (Some v) | None => Some h end.
(** src/mln_websocket.c:253-322 mln_websocket_handshake_response_generate; [out] is the chain given. *)
Definition response (room : N) (w : wsock) (out : HttpModel.chain) : option (N * wsock * HttpModel.chain) :=
  let h := w_http w in
  protocol <- field_iterator h n_protocol ;;
  ext <- field_iterator h n_extensions ;;
  extension <- (match ext with Some v => extension_tokens room v | None => Some None end) ;;
  accept <- accept_field h ;;
  let h := set_type (set_version (set_status (http_reset h) 101) 1) RESPONSE in
  h <- set_some h n_protocol protocol ;;
  h <- set_some h n_extensions extension ;;
  h <- field_set h n_accept (Some accept) ;;
  h <- field_set h n_upgrade (Some n_websocket) ;;
  h <- field_set h n_connection (Some n_upgrade) ;;
  h <- set_all h (w_fields w) ;;
  x <- generate None h out ;;
  let '(r, h, c) := x in
  Some (if r =? RET_ERROR then WS_FAILED else WS_OK, mkW h (w_fields w) (w_uri w) (w_args w) (w_key w), c).

(** src/mln_websocket.c:461-486 mln_websocket_client_handshake_key_generate: four random numbers of 32 bits. *)
Definition key_bytes (r : N * N * N * N) : list N :=
  let '(a, b, c, d) := r in
  concat (map (fun x => [N.land (N.shiftr x 24) 255; N.land (N.shiftr x 16) 255; N.land (N.shiftr x 8) 255; N.land x 255]) [a; b; c; d]).
Definition key_generate (r : N * N * N * N) : option HttpModel.bytes := x <- b64_encode (key_bytes r) ;; Some (firstn (snd x) (fst x)).

(** src/mln_websocket.c:405-459 mln_websocket_handshake_request_generate. The key is not kept in the object. *)
Definition request (rnd : N * N * N * N) (w : wsock) (out : HttpModel.chain) : option (N * wsock * HttpModel.chain) :=
  let h := set_uri (set_type (set_version (set_method (http_reset (w_http w)) 0) 1) REQUEST)
    (Some (match w_uri w with None => [47] | Some u => u end)) (w_args w) in
  key <- key_generate rnd ;;
  h <- field_set h n_key (Some key) ;;
  h <- field_set h n_upgrade (Some n_websocket) ;;
  h <- field_set h n_connection (Some n_upgrade) ;;
  h <- field_set h n_version (Some (text "13")) ;;
  h <- set_all h (w_fields w) ;;
  x <- generate None h out ;;
  let '(r, h, c) := x in
  Some (if r =? RET_ERROR then WS_FAILED else WS_OK, mkW h (w_fields w) (w_uri w) (w_args w) (w_key w), c).
