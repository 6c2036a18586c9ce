(** Model of the arrays of the script language: src/mln_lang.c:2679-3031 and the index operator of src/mln_lang_array.c, on the red-black
    trees of RbModel.v. An array has a tree of its elements by index and one of those with a key. An element is named by a number, in order of
    allocation, and so is the node of it in each tree; a freed element is not used again. The counts of references are not modelled, nor the
    collector (GcModel.v is about that), nor the overloading of operators by script functions. *)
Require Import List Arith NArith ZArith Bool.
Require Import Verif.Base Verif.RbModel Verif.StrModel.
Import ListNotations.
Open Scope N_scope.

(** include/mln_lang.h:33-41 and 329-345 mln_lang_val_s. A real is a number that stands for its place among the reals, with one number for
    both zeros, or no number if it is NaN. Of an object, an array and the code of a function the address is given; functions also have a type
    (src/mln_lang.c:2711-2727; a copy of a function has its type and code). Calls are no keys: they cannot be copied (2654). *)
Inductive val :=
| Nil | Int (i : Z) | Boolean (b : bool) | Real (r : option Z) | Str (s : mstr) | Obj (p : N) | Fun (t p : N) | Arr (p : N).
(** include/mln_lang.h:33-40 *)
Definition type (v : val) : Z :=
  match v with Nil => 0 | Int _ => 1 | Boolean _ => 2 | Real _ => 3 | Str _ => 4 | Obj _ => 5 | Fun _ _ => 6 | Arr _ => 7 end.
Definition sign_of {A} (lt : A -> A -> bool) (a b : A) : Z := if lt b a then 1%Z else if lt a b then (-1)%Z else 0%Z.
(** src/mln_lang.c:2679-2747 mln_lang_val_cmp; with NaN no comparison of reals holds. *)
Definition val_cmp (a b : val) : Z :=
  match a, b with
  | Nil, Nil => 0
  | Int i, Int j => sign_of Z.ltb i j
  | Boolean x, Boolean y => Z.b2z x - Z.b2z y
  | Real (Some x), Real (Some y) => sign_of Z.ltb x y
  | Real _, Real _ => 0
  | Str s, Str t => mstrcmp s t
  | Obj p, Obj q => sign_of N.ltb p q
  | Fun t p, Fun u q => if (u <? t)%N then 1 else if (t <? u)%N then -1 else sign_of N.ltb p q
  | Arr p, Arr q => sign_of N.ltb p q
  | _, _ => type a - type b
  end%Z.
(** src/mln_lang.c:2812-2820 mln_lang_array_elem_index_cmp *)
Definition index_cmp (a b : N) : Z := sign_of N.ltb a b.

(** 64-bit integers, without and with sign. *)
Definition u64 (i : Z) : N := Z.to_N (i mod 2 ^ 64).
Definition s64 (n : N) : Z := if n <? 2 ^ 63 then Z.of_N n else (Z.of_N n - 2 ^ 64)%Z.

(** Where the allocator has no memory: for the new value, the copy of the key, the element, its first node, its second. *)
Inductive stage := ForNil | ForKey | ForElem | ForNode | ForLink.
Definition fails (f : option stage) (s : stage) : bool :=
  match f, s with
  | Some ForNil, ForNil | Some ForKey, ForKey | Some ForElem, ForElem | Some ForNode, ForNode | Some ForLink, ForLink => true
  | _, _ => false
  end.
(** A sum of signed integers overflows; a freed element is used; the tree does not end. *)
Inductive fault := Overflow | Freed | NoFuel.
Inductive res (A : Type) := Ok (a : A) | Fault (f : fault).
Arguments Ok {A}. Arguments Fault {A}.
Definition rbind {A B} (r : res A) (f : A -> res B) : res B := match r with Ok a => f a | Fault e => Fault e end.
Definition fuelled {A} (r : option A) : res A := match r with Some a => Ok a | None => Fault NoFuel end.

Section Array.
(** The keys of a program, and the value of each. *)
Variable K : Type.
Variable what : K -> val.
(** src/mln_lang.c:2822-2828 mln_lang_array_elem_key_cmp, 2082-2090 mln_lang_var_cmp; no element of the tree is without a key. *)
Definition key_cmp (a b : K) : Z := val_cmp (what a) (what b).

(** include/mln_lang.h:356-369 mln_lang_array_s and mln_lang_array_elem_s: the trees, the keys and the values of the elements, the index, the
    next element, and the elements that are freed although the tree of keys has them. *)
Record arr := mkA { by_index : rbtree N; by_key : rbtree K; akey : N -> option K; aval : N -> val; index : N; made : N; dead : list N }.
(** src/mln_lang.c:2754-2786 __mln_lang_array_new; the arguments are what the memory held. *)
Definition new (t0 : rbtree N) (k0 : rbtree K) : arr := mkA (rb_new t0) (rb_new k0) (fun _ => None) (fun _ => Nil) 0 1 [].
Definition put {V} (f : N -> V) (a : N) (v : V) : N -> V := fun x => if x =? a then v else f x.

(** src/mln_lang.c:2884-2918 mln_lang_array_get_int: the element, if any. *)
Definition get_int (a : arr) (i : Z) (f : option stage) : res (arr * option N) :=
  if fails f ForNil || fails f ForElem then Ok (a, None)
  else rbind (fuelled (rb_search index_cmp (by_index a) (u64 i))) (fun e =>
    if negb (e =? 0) then Ok (a, Some e)
    else if fails f ForNode then Ok (a, None)
    else rbind (fuelled (rb_insert index_cmp (by_index a) (made a) (u64 i))) (fun t =>
      let next n := mkA t (by_key a) (put (akey a) (made a) None) (put (aval a) (made a) Nil) n (made a + 1) (dead a) in
      if index a <=? u64 i then if (i =? 2 ^ 63 - 1)%Z then Fault Overflow else Ok (next (u64 (i + 1)), Some (made a))
      else Ok (next (index a), Some (made a)))).

(** The elements that src/mln_rbtree.c:112-120 mln_rbtree_search looks at; the insertion after it looks at the same. *)
Fixpoint touched (fuel : nat) (m : links) (key : N -> K) (k : K) (x : N) : list N :=
  match fuel with
  | O => []
  | S fuel =>
      if x =? 0 then []
      else
        let ret := key_cmp k (key x) in
        x :: if (ret =? 0)%Z then [] else touched fuel m key k (if (ret <? 0)%Z then lft m x else rgt m x)
  end.
Definition look (a : arr) (k : K) : res N :=
  if existsb (fun x => existsb (N.eqb x) (dead a)) (touched (limit (by_key a)) (lnk (by_key a)) (key (by_key a)) k (root (lnk (by_key a)))) then Fault Freed
  else fuelled (rb_search key_cmp (by_key a) k).
(** src/mln_lang.c:2920-2966 mln_lang_array_get_other *)
Definition get_other (a : arr) (k : K) (f : option stage) : res (arr * option N) :=
  if fails f ForNil || fails f ForKey || fails f ForElem then Ok (a, None)
  else rbind (look a k) (fun e =>
    if negb (e =? 0) then Ok (a, Some e)
    else if fails f ForNode then Ok (a, None)
    else rbind (fuelled (rb_insert key_cmp (by_key a) (made a) k)) (fun kt =>
      if fails f ForLink then Ok (mkA (by_index a) kt (akey a) (aval a) (index a) (made a + 1) (made a :: dead a), None)
      else rbind (fuelled (rb_insert index_cmp (by_index a) (made a) (index a))) (fun t =>
        Ok (mkA t kt (put (akey a) (made a) (Some k)) (put (aval a) (made a) Nil) ((index a + 1) mod 2 ^ 64) (made a + 1) (dead a), Some (made a))))).
(** src/mln_lang.c:2968-2991 mln_lang_array_get_nil *)
Definition get_nil (a : arr) (f : option stage) : res (arr * option N) :=
  if fails f ForNil || fails f ForElem || fails f ForNode then Ok (a, None)
  else rbind (fuelled (rb_insert index_cmp (by_index a) (made a) (index a))) (fun t =>
    Ok (mkA t (by_key a) (put (akey a) (made a) None) (put (aval a) (made a) Nil) ((index a + 1) mod 2 ^ 64) (made a + 1) (dead a), Some (made a))).
(** src/mln_lang.c:2859-2882 __mln_lang_array_get; no key is the pointer NULL. *)
Definition get (a : arr) (k : option K) (f : option stage) : res (arr * option N) :=
  match k with
  | None => get_nil a f
  | Some k => match what k with Nil => get_nil a f | Int i => get_int a i f | _ => get_other a k f end
  end.
(** src/mln_lang.c:2993-3031 mln_lang_array_elem_exist; without memory the answer is 0. *)
Definition exist (a : arr) (k : K) (f : option stage) : res bool :=
  if fails f ForNil || fails f ForElem then Ok false
  else
    match what k with
    | Int i => rbind (fuelled (rb_search index_cmp (by_index a) (u64 i))) (fun e => Ok (negb (e =? 0)))
    | _ => if fails f ForKey then Ok false else rbind (look a k) (fun e => Ok (negb (e =? 0)))
    end.
(** src/mln_lang_array.c:599-628 mln_lang_array_index: the element, and what the operand is afterwards. The sum is one of unsigned numbers. *)
Definition index_op (a : arr) (k : K) (f : option stage) : res (arr * option N * val) :=
  match what k with
  | Int i =>
      if (i <? 0)%Z then
        let j := s64 ((u64 i + index a) mod 2 ^ 64) in
        if (j <? 0)%Z then Ok (a, None, Int j)
        else rbind (get_int a j f) (fun r => Ok (fst r, snd r, match snd r with Some _ => if (i =? -1)%Z then Int j else Int i | None => Int j end))
      else rbind (get_int a i f) (fun r => Ok (fst r, snd r, Int i))
  | v => rbind (get a (Some k) f) (fun r => Ok (fst r, snd r, v))
  end.
(** src/mln_rbtree.c mln_rbtree_iterate over the elements by index, as src/mln_lang.c:6544 mln_lang_dump_array does. *)
Definition all (a : arr) : res (arr * list (N * option K * val)) :=
  rbind (fuelled (rb_iterate (fun _ => []) (fun _ => false) (by_index a))) (fun r =>
    let '(t, l, _) := r in
    Ok (mkA t (by_key a) (akey a) (aval a) (index a) (made a) (dead a), map (fun e => (key t e, akey a e, aval a e)) l)).

(** What a program does with an array: it asks for the element of a key, in C or with the operator, whether there is one, gives an element a
    value, and looks at all. It has only elements that it was given, so what [Put] does with others does not matter. *)
Inductive op := Get (k : option K) (f : option stage) | Index (k : K) (f : option stage) | Exist (k : K) (f : option stage) | Put (e : N) (v : val) | All.
Inductive out := Elem (e : option N) | Is (b : bool) | Done | Elems (l : list (N * option K * val)).
Definition step (a : arr) (o : op) : res (arr * out) :=
  match o with
  | Get k f => rbind (get a k f) (fun r => Ok (fst r, Elem (snd r)))
  | Index k f => rbind (index_op a k f) (fun r => Ok (fst (fst r), Elem (snd (fst r))))
  | Exist k f => rbind (exist a k f) (fun b => Ok (a, Is b))
  | Put e v => Ok (if (0 <? e) && (e <? made a) then mkA (by_index a) (by_key a) (akey a) (put (aval a) e v) (index a) (made a) (dead a) else a, Done)
  | All => rbind (all a) (fun r => Ok (fst r, Elems (snd r)))
  end.
Fixpoint run (a : arr) (os : list op) : res (arr * list out) :=
  match os with
  | [] => Ok (a, [])
  | o :: os => rbind (step a o) (fun r => rbind (run (fst r) os) (fun q => Ok (fst q, snd r :: snd q)))
  end.
End Array.
Arguments key_cmp {K}. Arguments new {K}. Arguments run {K}. Arguments step {K}. Arguments get {K}. Arguments get_int {K}. Arguments get_other {K}.
Arguments get_nil {K}. Arguments exist {K}. Arguments index_op {K}. Arguments all {K}. Arguments look {K}. Arguments touched {K}. Arguments mkA {K}.
Arguments by_index {K}. Arguments by_key {K}. Arguments akey {K}. Arguments aval {K}. Arguments index {K}. Arguments made {K}. Arguments dead {K}.
Arguments Get {K}. Arguments Index {K}. Arguments Exist {K}. Arguments Put {K}. Arguments All {K}. Arguments Elem {K}. Arguments Is {K}. Arguments Done {K}. Arguments Elems {K}.
