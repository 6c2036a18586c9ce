(** What the head of an HTTP message means, as text: lines, the first line, header fields. *)
Require Import List Arith NArith Bool.
Require Import Verif.Base Verif.HttpModel.
Import ListNotations.
Open Scope N_scope.

(** The bytes of a chain. *)
Fixpoint content (c : chain) : bytes := match c with [] => [] | BMem l :: r => l ++ content r | _ :: r => content r end.

Definition is_blank (c : N) : Prop := c = 32 \/ c = 9.
Definition blanks (l : bytes) : Prop := Forall is_blank l.
Definition starts_dark (l : bytes) : Prop := exists c r, l = c :: r /\ ~ is_blank c.
(** The same word up to the case of letters. *)
Definition same_letter (a b : N) : Prop := a = b \/ 65 <= a <= 90 /\ b = a + 32 \/ 65 <= b <= 90 /\ a = b + 32.
Definition spelled (w name : bytes) : Prop := Forall2 same_letter w name.

(** ** Lines *)
(** A line of text and the bytes in front of its line feed: these may end with a carriage return, and null bytes behind that. *)
Definition last_is (l : bytes) (c : N) : Prop := exists r, l = r ++ [c].
Inductive line_of : bytes -> bytes -> Prop :=
| Line_plain l n : (l = [] -> n = O) -> ((2 <= length l)%nat -> ~ last_is l 0) -> ~ last_is l 13 -> line_of (l ++ repeat 0 n) l
| Line_cr l n : line_of (l ++ [13] ++ repeat 0 n) l.

(** ** The first line *)
Inductive head := Req (m : N) (u : bytes) (a : option bytes) (v : N) | Resp (v s : N) (t : option bytes).
Definition target (t u : bytes) (a : option bytes) : Prop :=
  t <> [] /\ Forall (fun c => ~ is_blank c) t /\ ~ In 63 u /\
  match a with
  | Some a => a <> [] /\ t = u ++ [63] ++ a
  | None => t = u \/ t = u ++ [63]
  end.
Definition digits (d : bytes) : Prop := Forall (fun c => 48 <= c <= 57) d.
Definition number (d : bytes) : N := fold_left (fun n c => 10 * n + (c - 48)) d 0.
Definition row (rows : list bytes) (i : N) (w : bytes) : Prop := exists r, nth_error rows (N.to_nat i) = Some r /\ spelled w r.
Definition first_line (l : bytes) (x : head) : Prop :=
  exists b0 w b1 t b2 e, l = b0 ++ w ++ b1 ++ t ++ b2 ++ e /\ blanks b0 /\ blanks b1 /\ b1 <> [] /\ blanks b2 /\
  match x with
  | Req m u a v => row http_method m w /\ target t u a /\ (e = [] /\ v = 0 \/ b2 <> [] /\ row http_version v e)
  | Resp v s msg =>
      row http_version v w /\ t <> [] /\ digits t /\ s = number t mod 2 ^ 32 /\
      match msg with None => e = [] | Some msg => e = msg /\ b2 <> [] /\ starts_dark msg end
  end.

(** ** Header fields *)
Definition name_byte (c : N) : Prop := ~ is_blank c /\ c <> 58.
Definition field_line (l k : bytes) (v : option bytes) : Prop :=
  exists b0 b1 t, l = b0 ++ k ++ b1 ++ t /\ blanks b0 /\ blanks b1 /\ k <> [] /\ Forall name_byte k /\
  match v with
  | None => t = [] \/ (exists b2, t = 58 :: b2 /\ blanks b2)
  | Some v => exists b2, t = 58 :: b2 ++ v /\ blanks b2 /\ starts_dark v
  end.

(** ** The head of a message, and what is left behind the empty line *)
Inductive header : bytes -> list (bytes * option bytes) -> bytes -> Prop :=
| Header_end raw l rest : ~ In 10 raw -> line_of raw l -> blanks l -> header (raw ++ [10] ++ rest) [] rest
| Header_field raw l k v d fs rest :
    ~ In 10 raw -> line_of raw l -> field_line l k v -> header d fs rest -> header (raw ++ [10] ++ d) ((k, v) :: fs) rest.
Definition message (d : bytes) (x : head) (fs : list (bytes * option bytes)) (rest : bytes) : Prop :=
  exists raw l r, d = raw ++ [10] ++ r /\ ~ In 10 raw /\ line_of raw l /\ first_line l x /\ header r fs rest.

(** What a program sees of a parsed message. *)
Definition head_of (h : http) : option head :=
  if type h =? REQUEST then match uri h with Some u => Some (Req (method h) u (args h) (version h)) | None => None end
  else if type h =? RESPONSE then Some (Resp (version h) (status h) (response_msg h))
  else None.
(** The message has been read without complaint, and the next call starts with its body. *)
Definition holds (h : http) (x : head) (fs : list (bytes * option bytes)) : Prop :=
  head_of h = Some x /\ fields h = fs /\ error h = 200 /\ done h = false.

(** ** The text of a message *)
Definition field_text (f : bytes * option bytes) : bytes :=
  fst f ++ [58; 32] ++ (match snd f with Some v => v | None => [] end) ++ [13; 10].
Definition fields_text (fs : list (bytes * option bytes)) : bytes := concat (map field_text fs) ++ [13; 10].
(** The reason phrase of a known status. *)
Definition reason (s : N) : option (bytes * bytes) :=
  match find (fun r => snd r =? s) http_status with Some (msg, code, _) => Some (code, msg) | None => None end.
Definition head_text (x : head) (l : bytes) : Prop :=
  match x with
  | Req m u a v => exists mt vt, nth_error http_method (N.to_nat m) = Some mt /\ nth_error http_version (N.to_nat v) = Some vt /\
      l = mt ++ [32] ++ u ++ (match a with Some a => 63 :: a | None => [] end) ++ [32] ++ vt ++ [13; 10]
  | Resp v s t => exists vt code msg, nth_error http_version (N.to_nat v) = Some vt /\ reason s = Some (code, msg) /\
      l = vt ++ [32] ++ code ++ [32] ++ msg ++ [13; 10]
  end.

(** Messages that text can carry: the target has no blank and no line feed, the part in front of the arguments no question mark, and the two
    are not both empty; a response has the reason phrase of its status; names have no blank, colon or line feed, values do not start with a
    blank and have no line feed. *)
Definition word_byte (c : N) : Prop := ~ is_blank c /\ c <> 10.
Definition good_head (x : head) : Prop :=
  match x with
  | Req m u a v => m < 8 /\ v < 2 /\ Forall word_byte u /\ ~ In 63 u /\
      match a with None => u <> [] | Some a => a <> [] /\ Forall word_byte a end
  | Resp v s t => v < 2 /\ exists code msg, reason s = Some (code, msg) /\ t = Some msg
  end.
Definition good_field (f : bytes * option bytes) : Prop :=
  fst f <> [] /\ Forall (fun c => name_byte c /\ c <> 10) (fst f) /\
  match snd f with None => True | Some v => starts_dark v /\ ~ In 10 v end.

(** ** Pieces *)
(** The same answer, up to how the bytes that are left lie in buffers. *)
Definition alike (x y : option (N * http * chain)) : Prop :=
  match x, y with Some (r, h, c), Some (r', h', c') => r = r' /\ h = h' /\ content c = content c' | _, _ => False end.
(** A body handler that does not care how its input is cut: called again with what it left and more input, it goes on as if it had had
    everything at once. *)
Definition streaming (f : handler) : Prop :=
  (forall h c c', content c = content c' -> alike (Some (f h c)) (Some (f h c'))) /\
  (forall h a b r h1 rest, done h = true -> f h a = (r, h1, rest) ->
     if r =? RET_OK then done h1 = true /\ alike (Some (f h (a ++ b))) (Some (f h1 (rest ++ b)))
     else alike (Some (f h (a ++ b))) (Some (r, h1, rest ++ b))).
Definition fit (f : option handler) : Prop := match f with Some f => streaming f | None => True end.
(** A program that calls the parser for every piece that arrives until the answer is not that more is needed. *)
Fixpoint feed (f : option handler) (h : http) (left : chain) (pieces : list chain) : option (N * http * chain) :=
  match pieces with
  | [] => Some (RET_OK, h, left)
  | p :: r =>
      x <- parse f h (left ++ p) ;;
      let '(ret, h, c) := x in
      if ret =? RET_OK then feed f h c r else Some (ret, h, c ++ concat r)
  end.

(** ** Output *)
(** The message that is written: a request without a target asks for the root. *)
Definition to_write (h : http) : option head :=
  if type h =? REQUEST then Some (Req (method h) (match uri h with Some u => u | None => [47] end) (args h) (version h))
  else if type h =? RESPONSE then Some (Resp (version h) (status h) (response_msg h))
  else None.
(** Buffers of at most 1024 bytes, none empty, all full but the last. *)
Definition packed (c : chain) (t : bytes) : Prop :=
  exists l, c = map BMem l /\ concat l = t /\ Forall (fun b => (1 <= length b <= 1024)%nat) l /\
    forall b, In b (removelast l) -> length b = 1024%nat.

(** ** Names of header fields *)
Definition named (k : bytes) (f : bytes * option bytes) : Prop := spelled k (fst f).
(** All spellings of the name in the header are the same one. *)
Definition one_spelling (k : bytes) (fs : list (bytes * option bytes)) : Prop := forall f, In f fs -> named k f -> fst f = k.
Inductive first_value (k : bytes) : list (bytes * option bytes) -> option bytes -> Prop :=
| First_none : first_value k [] None
| First_here f r : named k f -> first_value k (f :: r) (snd f)
| First_later f r v : ~ named k f -> first_value k r v -> first_value k (f :: r) v.
Inductive all_values (k : bytes) : list (bytes * option bytes) -> list bytes -> Prop :=
| All_none : all_values k [] []
| All_here f r v l : named k f -> snd f = Some v -> all_values k r l -> all_values k (f :: r) (v :: l)
| All_empty f r l : named k f -> snd f = None -> all_values k r l -> all_values k (f :: r) l
| All_other f r l : ~ named k f -> all_values k r l -> all_values k (f :: r) l.
Fixpoint commas (l : list bytes) : bytes := match l with [] => [] | [v] => v | v :: r => v ++ [44] ++ commas r end.
(** No name has a null byte. *)
Definition plain (fs : list (bytes * option bytes)) : Prop := forall f, In f fs -> ~ In 0 (fst f).
