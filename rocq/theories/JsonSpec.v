(** JSON texts (RFC 8259) and the values they denote, written without reference to the C code. Numbers are restricted to integers. *)
Require Import List NArith ZArith.
Require Import Verif.Base Verif.JsonNumModel Verif.JsonModel.
Import ListNotations.
Open Scope N_scope.

(** Space, tab, line feed, carriage return. *)
Definition ws (w : list N) : Prop := Forall (fun c => In c [32; 9; 10; 13]) w.

(** The value of a string of decimal digits. *)
Definition dec_value (ds : list N) : N := fold_left (fun a c => 10 * a + (c - 48)) ds 0.
Definition digits (ds : list N) : Prop := ds <> [] /\ Forall (fun c => 48 <= c <= 57) ds.
(** A natural number without superfluous zeros; an integer. *)
Definition nat_text (n : N) (ds : list N) : Prop := digits ds /\ dec_value ds = n /\ (hd 0 ds = 48 -> ds = [48]).
Definition int_text (z : Z) (t : list N) : Prop :=
  ((0 <= z)%Z /\ nat_text (Z.to_N z) t) \/ ((z < 0)%Z /\ exists t', t = 45 :: t' /\ nat_text (Z.to_N (- z)) t').

(** The value of a hexadecimal digit. *)
Inductive hexd : N -> N -> Prop :=
| hex_dec c : 48 <= c <= 57 -> hexd c (c - 48)
| hex_low c : 97 <= c <= 102 -> hexd c (c - 97 + 10)
| hex_up c : 65 <= c <= 70 -> hexd c (c - 65 + 10).
(** UTF-8 for the code points of the basic plane. *)
Definition utf8_spec (u : N) : list N :=
  if u <? 128 then [u]
  else if u <? 2048 then [192 + u / 64; 128 + u mod 64]
  else [224 + u / 4096; 128 + u / 64 mod 64; 128 + u mod 64].
(** Surrogates are not characters. *)
Definition scalar (u : N) : Prop := u < 55296 \/ 57344 <= u < 65536.
(** The escapes of one character. *)
Definition escapes : list (N * N) := [(34, 34); (92, 92); (47, 47); (98, 8); (102, 12); (110, 10); (114, 13); (116, 9)].

(** [chars u s raw]: between quotes, [raw] stands for the bytes [s]. A raw null byte, which RFC 8259 does not allow, is let through as itself
    in strings without numeric escapes ([u] false), as mln_json_encode writes it. *)
Inductive chars (u : bool) : list N -> list N -> Prop :=
| ch_nil : chars u [] []
| ch_raw c s raw : is_byte c -> c <> 34 -> c <> 92 -> (c = 0 -> u = false) -> chars u s raw -> chars u (c :: s) (c :: raw)
| ch_esc e c s raw : In (e, c) escapes -> chars u s raw -> chars u (c :: s) (92 :: e :: raw)
| ch_hex a b c d x y z w s raw : u = true -> hexd a x -> hexd b y -> hexd c z -> hexd d w ->
    let code := 4096 * x + 256 * y + 16 * z + w in
    scalar code -> chars u s raw -> chars u (utf8_spec code ++ s) (92 :: 117 :: a :: b :: c :: d :: raw).
Definition string_text (s t : list N) : Prop := exists u raw, chars u s raw /\ t = 34 :: raw ++ [34].

(** [value v t]: the text [t], without space around it, denotes [v]. Members are kept in the order of the text. The numbers are the integers
    that a double holds with all their neighbours. *)
Inductive value : json -> list N -> Prop :=
| v_true : value JTrue [116; 114; 117; 101]
| v_false : value JFalse [102; 97; 108; 115; 101]
| v_null : value JNull [110; 117; 108; 108]
| v_str s t : string_text s t -> value (JStr s) t
| v_int z t : (- 2 ^ 53 <= z <= 2 ^ 53)%Z -> int_text z t -> value (JNum (z2d z)) t
| v_obj_empty w : ws w -> value (JObj []) (123 :: w ++ [125])
| v_obj m t : members m t -> NoDup (map fst m) -> value (JObj m) (123 :: t)
| v_arr l t : elements l t -> value (JArr l) (91 :: t)
with members : list (list N * json) -> list N -> Prop :=
| m_last k v w1 tk w2 w3 tv w4 : ws w1 -> string_text k tk -> ws w2 -> ws w3 -> value v tv -> ws w4 ->
    members [(k, v)] (w1 ++ tk ++ w2 ++ 58 :: w3 ++ tv ++ w4 ++ [125])
| m_more k v w1 tk w2 w3 tv w4 m t : ws w1 -> string_text k tk -> ws w2 -> ws w3 -> value v tv -> ws w4 -> members m t ->
    members ((k, v) :: m) (w1 ++ tk ++ w2 ++ 58 :: w3 ++ tv ++ w4 ++ 44 :: t)
with elements : list json -> list N -> Prop :=
| e_last v w1 tv w2 : ws w1 -> value v tv -> ws w2 -> elements [v] (w1 ++ tv ++ w2 ++ [93])
| e_more v w1 tv w2 l t : ws w1 -> value v tv -> ws w2 -> elements l t -> elements (v :: l) (w1 ++ tv ++ w2 ++ 44 :: t).

(** A document: an object or an array with space around it. *)
Definition is_container (v : json) : Prop := match v with JObj _ | JArr _ => True | _ => False end.
Definition document (v : json) (s : list N) : Prop := is_container v /\ exists w1 t w2, s = w1 ++ t ++ w2 /\ ws w1 /\ value v t /\ ws w2.

(** The values for which the round trip is claimed: no empty array, no value without type, distinct keys, integers up to [2^53]. *)
Inductive plain : json -> Prop :=
| pl_true : plain JTrue | pl_false : plain JFalse | pl_null : plain JNull
| pl_str s : bytes s -> plain (JStr s)
| pl_int z : (- 2 ^ 53 <= z <= 2 ^ 53)%Z -> plain (JNum (z2d z))
| pl_obj m : NoDup (map fst m) -> Forall (fun p => bytes (fst p)) m -> (forall p, In p m -> plain (snd p)) -> plain (JObj m)
| pl_arr l : l <> [] -> (forall v, In v l -> plain v) -> plain (JArr l).

(** A tree search that answers only members with the key asked for; nothing is said about whether it finds them. *)
Definition sound_look (look : list (list N) -> list N -> option nat) : Prop :=
  forall ks k i, look ks k = Some i -> nth_error ks i = Some k.

(** ** Limits *)
Definition within (limit n : N) : Prop := limit = 0 \/ n <= limit.
Fixpoint depth (v : json) : N :=
  match v with
  | JObj m => 1 + fold_right N.max 0 (map (fun p => depth (snd p)) m)
  | JArr l => 1 + fold_right N.max 0 (map depth l)
  | _ => 0
  end.
(** Every part of a value, itself included. *)
Inductive part : json -> json -> Prop :=
| part_self v : part v v
| part_obj m k v u : In (k, v) m -> part u v -> part u (JObj m)
| part_arr l v u : In v l -> part u v -> part u (JArr l).
(** What the five limits of a policy promise about a value. *)
Definition obeys (p : policy) (v : json) : Prop :=
  within (p_depth p) (depth v) /\
  (forall s, part (JStr s) v -> within (p_str p) (N.of_nat (length s))) /\
  (forall l, part (JArr l) v -> within (p_arr p) (N.of_nat (length l))) /\
  (forall m, part (JObj m) v -> within (p_obj p) (N.of_nat (length m)) /\ Forall (fun q => within (p_key p) (N.of_nat (length (fst q)))) m).

(** Ten decimal digits in a row: enough for an exponent that an int does not hold. *)
Definition long_run (s : list N) : Prop := exists a ds b, s = a ++ ds ++ b /\ length ds = 10%nat /\ Forall (fun c => 48 <= c <= 57) ds.
