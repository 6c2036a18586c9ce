(** What a table of key and value pairs should do: the live pairs, oldest first. Only the shapes of operations and answers come from the model. *)
Require Import List Arith NArith Bool Permutation.
Require Import Verif.HashModel.
Import ListNotations.

Section Spec.
Variables K V : Type.
Variable cmp : K -> K -> bool.
Definition pairs := list (K * V).

Fixpoint lookup (k : K) (l : pairs) : option (K * V) :=
  match l with [] => None | p :: r => if cmp k (fst p) then Some p else lookup k r end.
(** Replace, and remove, the first pair with an equal key. *)
Fixpoint replace (k : K) (p : K * V) (l : pairs) : pairs :=
  match l with [] => [] | q :: r => if cmp k (fst q) then p :: r else q :: replace k p r end.
Fixpoint remove1 (k : K) (l : pairs) : pairs :=
  match l with [] => [] | q :: r => if cmp k (fst q) then r else q :: remove1 k r end.
Definition handed (f : flag) (p : K * V) : list (K + V) :=
  match f with FNone => [] | FVal => [inr (snd p)] | FKey => [inl (fst p)] | FKV => [inr (snd p); inl (fst p)] end.

(** Iteration: [before] has been visited, the pairs of [l] are still to come. When the handler removes the key it is given, the oldest pair
    with that key goes; it is the visited pair itself, or one visited before. *)
Fixpoint visit (before l : pairs) (p : plan) : pairs * pairs * list (K + V) * bool :=
  match l with
  | [] => (before, [], [], true)
  | x :: r =>
      let '(what, stop) := match p with [] => (None, false) | y :: _ => y end in
      let all := before ++ [x] in
      let '(before, fr) := match what with
                           | Some f => (remove1 (fst x) all, match lookup (fst x) all with Some q => handed f q | None => [] end)
                           | None => (all, []) end in
      if stop : bool then (before ++ r, [x], fr, false)
      else let '(res, seen, fr', ok) := visit before r (tl p) in (res, x :: seen, fr ++ fr', ok)
  end.

Definition sstep (l : pairs) (o : op K V) : pairs * out K V :=
  match o with
  | HInsert _ _ k v _ _ t3 => if t3 then (l ++ [(k, v)], OStatus _ _ true) else (l, OStatus _ _ false)
  | HUpdate _ _ k v _ _ t3 =>
      match lookup k l with
      | Some old => (replace k (k, v) l, OUpdate _ _ true (Some old))
      | None => if t3 then (l ++ [(k, v)], OUpdate _ _ true None) else (l, OUpdate _ _ false (Some (k, v)))
      end
  | HSearch _ _ k => (l, OVal _ _ (option_map snd (lookup k l)))
  | HSearchAll _ _ k => (l, OVals _ _ (map snd (filter (fun p => cmp k (fst p)) l)))
  | HChange _ _ k v => match lookup k l with Some (k', old) => (replace k (k', v) l, OVal _ _ (Some old)) | None => (l, OVal _ _ None) end
  | HExist _ _ k => (l, OBool _ _ (existsb (fun p => cmp k (fst p)) l))
  | HCount _ _ => (l, ONum _ _ (N.of_nat (length l)))
  | HRemove _ _ k f => (remove1 k l, OFreed _ _ (match lookup k l with Some p => handed f p | None => [] end))
  | HIterate _ _ p => let '(l', seen, fr, ok) := visit [] l p in (l', OIter _ _ seen fr ok)
  | HReset _ _ f => ([], OFreedAll _ _ (flat_map (handed f) l))
  end.
Fixpoint srun (l : pairs) (ops : list (op K V)) : pairs * list (out K V) :=
  match ops with [] => (l, []) | o :: r => let '(l', x) := sstep l o in let '(l'', y) := srun l' r in (l'', x :: y) end.

(** Two answers say the same: a reset may release the entries in any order. *)
Inductive same_out : out K V -> out K V -> Prop :=
| so_eq o : same_out o o
| so_perm l l' : Permutation l l' -> same_out (OFreedAll _ _ l) (OFreedAll _ _ l').

(** Which operations the theorem is about. [grows] tells whether the table is one that grows and shrinks. No iteration is stopped by a handler
    that has just removed its entry; and in a table that grows, no update meets an unknown key and no handler removes entries. *)
Definition plan_ok (grows : bool) (p : plan) : Prop :=
  Forall (fun x => match fst x with Some _ => snd x = false /\ grows = false | None => True end) p.
Definition op_ok (grows : bool) (l : pairs) (o : op K V) : Prop :=
  match o with
  | HUpdate _ _ k _ _ _ _ => grows = false \/ lookup k l <> None
  | HIterate _ _ p => plan_ok grows p
  | _ => True
  end.
Fixpoint legal (grows : bool) (l : pairs) (ops : list (op K V)) : Prop :=
  match ops with [] => True | o :: r => op_ok grows l o /\ legal grows (fst (sstep l o)) r end.
End Spec.
Arguments lookup {K V}. Arguments replace {K V}. Arguments remove1 {K V}. Arguments handed {K V}. Arguments visit {K V}. Arguments sstep {K V}. Arguments srun {K V}.
Arguments same_out {K V}. Arguments op_ok {K V}. Arguments legal {K V}.

(** A hash handler answers below the table length and the same for equal keys; equality is an equivalence. *)
Record handlers (K : Type) (hash : N -> K -> N) (cmp : K -> K -> bool) : Prop := Handlers {
  hash_range : forall len k, (0 < len)%N -> (hash len k < len)%N;
  hash_equal : forall len k k', cmp k k' = true -> hash len k = hash len k';
  cmp_refl : forall k, cmp k k = true;
  cmp_sym : forall k k', cmp k k' = cmp k' k;
  cmp_trans : forall a b c, cmp a b = true -> cmp b c = true -> cmp a c = true }.
