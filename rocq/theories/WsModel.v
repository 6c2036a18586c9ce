(** Model of the WebSocket frames, src/mln_websocket.c.

    Memory allocation is taken to succeed and no extension handler is set.  Of a
    buffer in a chain only the bytes from left_pos to its end are modelled; they are
    taken to lie in memory.  The handshake, which goes through the HTTP part, is not
    modelled. *)
Require Import List NArith Bool.
Import ListNotations.
Local Open Scope N_scope.

(** The fields of mln_websocket_t that frames use, include/mln_websocket.h:72-97:
    the memory at content, content_len, the flags, opcode, mask, status, masking_key. *)
Record ws := W {
  content : option (list N); clen : N;
  fin : bool; rsv1 : bool; rsv2 : bool; rsv3 : bool;
  opcode : N; mask : bool; status : N; key : N }.

(** mln_websocket_init, src/mln_websocket.c:31-62 *)
Definition ws_init : ws := W None 0 false false false false 0 false 0 0.

(** M_WS_OPCODE_*, include/mln_websocket.h:44-49 *)
Definition TEXT : N := 1.
Definition BINARY : N := 2.
Definition CLOSE : N := 8.
Definition PING : N := 9.
Definition PONG : N := 10.

Definition b2n (b : bool) (v : N) : N := if b then v else 0.
(** One byte of a word, [(m >> s) & 0xff]. *)
Definition byte_at (m s : N) : N := N.land (N.shiftr m s) 255.
(** tmpkey, src/mln_websocket.c:740-743 and 930-933 *)
Definition tmpkey (m : N) : list N := [byte_at m 24; byte_at m 16; byte_at m 8; byte_at m 0].
(** The loops over the payload, src/mln_websocket.c:750-752 and 941-943: byte number
    [i] on is combined with the bytes of the key in turn. *)
Fixpoint xor_from (k : list N) (i : nat) (l : list N) : list N :=
  match l with
  | [] => []
  | b :: t => N.lxor b (nth (Nat.modulo i 4) k 0) :: xor_from k (S i) t
  end.

(** What generating ends in: the bytes of the buffer, an error, or a write or read
    outside of a buffer. *)
Inductive gout := GOk (buf : list N) | GError | GUndef.

(** mln_websocket_generate, src/mln_websocket.c:644-763.  The buffer has [size] bytes;
    [GUndef] when the bytes written are not that many, when the content is shorter
    than its length says, or when the 32-bit counter of the masking loop never
    reaches the length. *)
Definition generate (w : ws) : gout :=
  let mem := match content w with None => [] | Some l => l end in
  let n := if opcode w =? CLOSE then (clen w + 2) mod 2 ^ 64 else clen w in
  if match content w with None => negb (clen w =? 0) | Some _ => false end then GError
  else if ((opcode w =? CLOSE) || (opcode w =? PING) || (opcode w =? PONG)) && (125 <? n) then GError
  else if N.of_nat (length mem) <? clen w then GUndef
  else if mask w && (2 ^ 32 <=? n) then GUndef
  else
    let payload_length := if 125 <? n then if N.shiftr n 16 =? 0 then 126 else 127 else n in
    let size := 2 + (if 125 <? n then if N.shiftr n 16 =? 0 then 2 else 8 else 0) + n + b2n (mask w) 4 in
    let st := if opcode w =? CLOSE then [byte_at (status w) 8; byte_at (status w) 0] else [] in
    let body := firstn (N.to_nat (clen w)) mem in
    let h1 := N.lor (N.lor (N.lor (N.lor (b2n (fin w) 0x80) (b2n (rsv1 w) 0x40)) (b2n (rsv2 w) 0x20)) (b2n (rsv3 w) 0x10)) (N.land (opcode w) 15) in
    let h2 := N.lor (b2n (mask w) 0x80) (N.land payload_length 0x7f) in
    let ext :=
      if payload_length =? 126 then [byte_at n 8; byte_at n 0]
      else if payload_length =? 127 then
        [byte_at n 56; byte_at n 48; byte_at n 40; byte_at n 32; byte_at n 24; byte_at n 16; byte_at n 8; byte_at n 0]
      else [] in
    let out := h1 :: h2 :: ext ++
      (if mask w then
         let k := tmpkey (key w) in
         k ++ xor_from k 0 st ++ xor_from k (length st) body
       else st ++ body) in
    if N.of_nat (length out) =? size then GOk out else GUndef.

(** The flags of the calls below, include/mln_websocket.h:53-57: the message begins,
    the message ends, the sender is a client, the sender is a server. *)
Record flags := Fl { new : bool; last : bool; client : bool; server : bool }.

(** Setting up a frame, as in src/mln_websocket.c:493-516; [rnd] is the masking key
    drawn from the clock. *)
Definition setup (w : ws) (c : option (list N)) (n : N) (f : bool) (op : N) (fl : flags) (rnd : N) : ws :=
  W c n f false false false op (client fl) (status w) (if client fl then rnd else key w).

(** What a call leaves: the object and the result. *)
Definition gen (w : ws) : ws * gout := (w, generate w).

(** mln_websocket_text_generate, src/mln_websocket.c:488-517; [buf] is the memory,
    [n] the length passed. *)
Definition text_generate (w : ws) (buf : list N) (n : N) (fl : flags) (rnd : N) : ws * gout :=
  if client fl && server fl then (w, GError)
  else gen (setup w (Some buf) n (last fl) (if new fl then TEXT else 0) fl rnd).
(** mln_websocket_binary_generate, src/mln_websocket.c:519-548 *)
Definition binary_generate (w : ws) (buf : list N) (n : N) (fl : flags) (rnd : N) : ws * gout :=
  if client fl && server fl then (w, GError)
  else gen (setup w (Some buf) n (last fl) (if new fl then BINARY else 0) fl rnd).
(** mln_websocket_close_generate, src/mln_websocket.c:550-578.  [reason] is a C string
    without its terminator; the argument [st] is not used. *)
Definition close_generate (w : ws) (reason : option (list N)) (st : N) (fl : flags) (rnd : N) : ws * gout :=
  if client fl && server fl then (w, GError)
  else gen (setup w reason (match reason with None => 0 | Some l => N.of_nat (length l) end) true CLOSE fl rnd).
(** mln_websocket_ping_generate, src/mln_websocket.c:580-606 *)
Definition ping_generate (w : ws) (fl : flags) (rnd : N) : ws * gout :=
  if client fl && server fl then (w, GError) else gen (setup w None 0 true PING fl rnd).
(** mln_websocket_pong_generate, src/mln_websocket.c:608-634 *)
Definition pong_generate (w : ws) (fl : flags) (rnd : N) : ws * gout :=
  if client fl && server fl then (w, GError) else gen (setup w None 0 true PONG fl rnd).

(** * Parsing *)

(** The loops that look for the next buffer with something in it, as in
    src/mln_websocket.c:820-825 and 953-956. *)
Fixpoint skip_empty (bufs : list (list N)) : list (list N) :=
  match bufs with
  | [] => []
  | [] :: t => skip_empty t
  | _ => bufs
  end.

(** One turn of the loop src/mln_websocket.c:772-787 that reads the two header bytes. *)
Definition next_byte (bufs : list (list N)) : option (N * list (list N)) :=
  match skip_empty bufs with
  | (b :: l) :: t => Some (b, l :: t)
  | _ => None
  end.

(** Reading a field of [n > 0] bytes, as in src/mln_websocket.c:809-830: [tmp = p - end]
    is 0 at the end of a buffer, and otherwise negative, that is huge as an unsigned
    number, so all [n] bytes are read from the current buffer, or from the next one
    with something in it, whether they are there or not.  [ROver] is a read behind
    the end of a buffer. *)
Inductive rd := RGot (l : list N) (bufs : list (list N)) | RNone | ROver.
Definition take (n : nat) (bufs : list (list N)) : rd :=
  match skip_empty bufs with
  | [] => RNone
  | b :: t => if Nat.ltb (length b) n then ROver else RGot (firstn n b) (skipn n b :: t)
  end.
Definition take0 (n : nat) (bufs : list (list N)) : rd :=
  match n with O => RGot [] bufs | S _ => take n bufs end.

(** What parsing ends in: OK with the chain that is left, NOTYET, or undefined
    behaviour. *)
Inductive pout := POk (w : ws) (bufs : list (list N)) | PNotYet (w : ws) | PUndef.

Definition set_status (w : ws) (s : N) : ws :=
  W (content w) (clen w) (fin w) (rsv1 w) (rsv2 w) (rsv3 w) (opcode w) (mask w) s (key w).

(** The end of mln_websocket_parse, src/mln_websocket.c:905-973 *)
Definition parse_end (w : ws) (b1 b2 k : N) (c : option (list N)) (n : N) (bufs : list (list N)) : pout :=
  let op := N.land b1 15 in
  let masked := N.testbit b2 7 in
  let st := status w in
  let unstatus := masked && (op =? CLOSE) && negb (st =? 0) in
  let st' :=
    if unstatus then
      N.lor (N.shiftl (N.lxor (byte_at st 8) (nth 0 (tmpkey k) 0)) 8) (N.lxor (byte_at st 0) (nth 1 (tmpkey k) 0))
    else st in
  let c' := if masked then option_map (xor_from (tmpkey k) (if unstatus then 2 else 0)) c else c in
  POk (W c' n (N.testbit b1 7) (N.testbit b1 6) (N.testbit b1 5) (N.testbit b1 4) op masked st' (if masked then k else 0))
    (skip_empty bufs).

(** The payload, src/mln_websocket.c:853-903 *)
Definition parse_payload (w : ws) (b1 b2 k n : N) (bufs : list (list N)) : pout :=
  if n =? 0 then parse_end w b1 b2 k None 0 bufs
  else
    let body w n bufs :=
      match take0 (N.to_nat n) bufs with
      | RNone => PNotYet w
      | ROver => PUndef
      | RGot l bufs => parse_end w b1 b2 k (Some l) n bufs
      end in
    if (N.land b1 15 =? CLOSE) && (1 <? n) then
      match take 2 bufs with
      | RNone => PNotYet w
      | ROver => PUndef
      | RGot l bufs => body (set_status w (N.lor (N.shiftl (nth 0 l 0) 8) (nth 1 l 0))) (n - 2) bufs
      end
    else body (set_status w 0) n bufs.

(** The masking key, src/mln_websocket.c:832-851.  A byte of 128 or more shifted by 24
    leaves int; as gcc documents, the bits are kept. *)
Definition parse_key (w : ws) (b1 b2 n : N) (bufs : list (list N)) : pout :=
  if N.testbit b2 7 then
    match take 4 bufs with
    | RNone => PNotYet w
    | ROver => PUndef
    | RGot l bufs =>
        parse_payload w b1 b2
          (N.lor (N.lor (N.lor (N.shiftl (nth 0 l 0) 24) (N.shiftl (nth 1 l 0) 16)) (N.shiftl (nth 2 l 0) 8)) (nth 3 l 0)) n bufs
    end
  else parse_payload w b1 b2 0 n bufs.

(** mln_websocket_parse, src/mln_websocket.c:765-973.  In the eight-byte length the
    first byte, an int, is shifted by 56. *)
Definition parse (w : ws) (bufs : list (list N)) : pout :=
  match next_byte bufs with
  | None => PNotYet w
  | Some (b1, bufs) =>
      match next_byte bufs with
      | None => PNotYet w
      | Some (b2, bufs) =>
          let n := N.land b2 0x7f in
          if n =? 127 then
            match take 8 bufs with RNone => PNotYet w | _ => PUndef end
          else if n =? 126 then
            match take 2 bufs with
            | RNone => PNotYet w
            | ROver => PUndef
            | RGot l bufs => parse_key w b1 b2 (N.lor (N.shiftl (nth 0 l 0) 8) (nth 1 l 0)) bufs
            end
          else parse_key w b1 b2 n bufs
      end
  end.
