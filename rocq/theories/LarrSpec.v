(** What an array of the script language is: places in the order in which they were made, each with a number, maybe a key, and a value. *)
Require Import List Arith NArith ZArith Bool.
Require Import Verif.Base Verif.StrModel Verif.LarrModel.
Import ListNotations.
Open Scope N_scope.

(** Two keys are the same: of one type, and equal; strings if they have the same bytes. *)
Definition same_key (a b : val) : bool :=
  match a, b with
  | Int i, Int j => Z.eqb i j
  | Boolean x, Boolean y => Bool.eqb x y
  | Real (Some x), Real (Some y) => Z.eqb x y
  | Str s, Str t => if list_eq_dec N.eq_dec (s_bytes s) (s_bytes t) then true else false
  | Obj p, Obj q => p =? q
  | Fun t p, Fun u q => (t =? u) && (p =? q)
  | Arr p, Arr q => p =? q
  | _, _ => false
  end.

Section Places.
Variable K : Type.
Variable what : K -> val.
(** Number, key and value. *)
Definition place : Type := N * option K * val.
Definition number (p : place) : N := fst (fst p).
Definition key_of (p : place) : option K := snd (fst p).
(** The places are called 1, 2, ... in the order in which they were made. *)
Fixpoint find (is : place -> bool) (n : N) (l : list place) : option N :=
  match l with [] => None | p :: l => if is p then Some n else find is (n + 1) l end.
Definition numbered (n : N) (p : place) : bool := number p =? n.
Definition has_key (k : K) (p : place) : bool := match key_of p with Some k' => same_key (what k) (what k') | None => false end.
(** The next free number is one more than the largest. *)
Definition next (l : list place) : N := fold_right (fun p n => N.max (number p + 1) n) 0 l.

(** The place of a key: without a key a new one; of an integer that with this number, of another key that with this key. If there is none it is
    made, with the number asked for or the next one, and without a value. *)
Definition take (l : list place) (is : place -> bool) (p : place) : list place * option N :=
  match find is 1 l with Some e => (l, Some e) | None => (l ++ [p], Some (1 + N.of_nat (length l))) end.
Definition fetch (l : list place) (k : option K) : list place * option N :=
  match k with
  | None => take l (fun _ => false) (next l, None, Nil)
  | Some k =>
      match what k with
      | Nil => take l (fun _ => false) (next l, None, Nil)
      | Int i => take l (numbered (Z.to_N i)) (Z.to_N i, None, Nil)
      | _ => take l (has_key k) (next l, Some k, Nil)
      end
  end.
(** The operator counts negative numbers from the end; before the first place there is nothing. *)
Definition fetch_back (l : list place) (k : K) : list place * option N :=
  match what k with
  | Int i =>
      if (i <? 0)%Z then
        let j := (i + Z.of_N (next l))%Z in if (j <? 0)%Z then (l, None) else take l (numbered (Z.to_N j)) (Z.to_N j, None, Nil)
      else fetch l (Some k)
  | _ => fetch l (Some k)
  end.
Definition has (l : list place) (k : K) : bool :=
  match what k with
  | Nil => false
  | Int i => (0 <=? i)%Z && existsb (numbered (Z.to_N i)) l
  | _ => existsb (has_key k) l
  end.
Fixpoint assign (l : list place) (e : N) (v : val) : list place :=
  match l with [] => [] | (n, k, w) :: l => if e =? 1 then (n, k, v) :: l else (n, k, w) :: assign l (e - 1) v end.

Definition answer (l : list place) (o : op K) : list place * out K :=
  match o with
  | Get k _ => let r := fetch l k in (fst r, Elem (snd r))
  | Index k _ => let r := fetch_back l k in (fst r, Elem (snd r))
  | Exist k _ => (l, Is (has l k))
  | Put e v => (assign l e v, Done)
  | All => (l, Elems l)
  end.
(** What a call says for want of memory. *)
Definition refusal (o : op K) : option (out K) :=
  match o with
  | Get _ (Some _) | Index _ (Some _) => Some (Elem None)
  | Exist _ (Some _) => Some (Is false)
  | _ => None
  end.
(** A history: each call has its answer, or is refused and changes nothing. *)
Inductive means : list place -> list (op K) -> list (out K) -> list place -> Prop :=
| m_end l : means l [] [] l
| m_answer l o os r rs l' : answer l o = (l', r) -> forall l'', means l' os rs l'' -> means l (o :: os) (r :: rs) l''
| m_refused l o os r rs : refusal o = Some r -> forall l'', means l os rs l'' -> means l (o :: os) (r :: rs) l''.

(** What is allowed: numbers up to 2^62, negative ones with the operator and in questions only, and memory for the
    last node of a place with a key. *)
Definition small (i : Z) : Prop := (0 <= i < 2 ^ 62)%Z.
Definition allowed (o : op K) : Prop :=
  match o with
  | Get k f => f <> Some ForLink /\ match k with Some k => match what k with Int i => small i | _ => True end | None => True end
  | Index k f => f <> Some ForLink /\ match what k with Int i => (- 2 ^ 63 <= i < 2 ^ 62)%Z | _ => True end
  | Exist k _ => match what k with Int i => (- 2 ^ 63 <= i < 2 ^ 63)%Z | _ => True end
  | _ => True
  end.
(** Keys that can be told apart: no NaN, strings of bytes below 128, and at one address one string. *)
Definition fine (v : val) : Prop :=
  match v with Real None => False | Str s => Forall (fun c => c < 128) (s_bytes s) | _ => True end.
Definition sound_keys : Prop :=
  (forall k, fine (what k)) /\
  (forall a b s t, what a = Str s -> what b = Str t -> s_addr s = s_addr t -> s_bytes s = s_bytes t).
End Places.
Arguments number {K}. Arguments key_of {K}. Arguments find {K}. Arguments numbered {K}. Arguments has_key {K}. Arguments next {K}. Arguments take {K}.
Arguments fetch {K}. Arguments fetch_back {K}. Arguments has {K}. Arguments assign {K}. Arguments answer {K}. Arguments refusal {K}. Arguments means {K}.
Arguments allowed {K}. Arguments sound_keys {K}.
