(** What a priority queue should do: the nodes in it with their keys, in no particular order. *)
Require Import List Arith NArith Bool Permutation Sorted.
Require Import Verif.FheapModel.
Import ListNotations.
Open Scope N_scope.

(** A strict order in which two keys may be equivalent. *)
Record strict_weak {K} (lt : K -> K -> bool) : Prop := StrictWeak {
  sw_irrefl : forall a, lt a a = false;
  sw_trans : forall a b c, lt a b = true -> lt b c = true -> lt a c = true;
  sw_equiv : forall a b c, lt a b = false -> lt b c = false -> lt a c = false }.

Section Spec.
Variable K : Type.
Variable lt : K -> K -> bool.
Variable min_val : K.
Definition live := list (N * K).
Definition without (a : N) (l : live) : live := filter (fun p => negb (fst p =? a)) l.
Definition with_key (a : N) (k : K) (l : live) : live := map (fun p => if fst p =? a then (a, k) else p) l.
(** [p] is in the queue and no key there is below its key. *)
Definition least (l : live) (p : N * K) : Prop := In p l /\ forall q, In q l -> lt (snd q) (snd p) = false.

(** Which answer and which next content each operation may have. *)
Inductive allowed : live -> op K -> out K -> live -> Prop :=
| a_insert l a k : allowed l (FInsert a k) ODone (l ++ [(a, k)])
| a_extract_none : allowed [] FExtract (OGot None) []
| a_extract l p : least l p -> allowed l FExtract (OGot (Some p)) (without (fst p) l)
| a_min_none : allowed [] FMinimum (OGot None) []
| a_min l p : least l p -> allowed l FMinimum (OGot (Some p)) l
| a_decrease l a k k0 : In (a, k0) l -> lt k0 k = false -> allowed l (FDecrease a k) (OStatus true) (with_key a k l)
| a_refuse l a k k0 : In (a, k0) l -> lt k0 k = true -> allowed l (FDecrease a k) (OStatus false) l
| a_delete l a : allowed l (FDelete a) ODone (without a l)
| a_free l l' : Permutation l l' -> StronglySorted (fun p q => lt (snd q) (snd p) = false) l' -> allowed l FFree (OAll l') []
| a_count l : allowed l FCount (ONum (N.of_nat (length l))) l.

(** What the caller must do: insert nodes that are not in the queue, name nodes that are, and delete only while every other key is above the least value. *)
Definition legal (l : live) (o : op K) : Prop :=
  match o with
  | FInsert a _ => ~ In a (map fst l)
  | FDecrease a _ => In a (map fst l)
  | FDelete a => (exists k, In (a, k) l /\ lt k min_val = false) /\ forall b k, In (b, k) l -> b <> a -> lt min_val k = true
  | _ => True
  end.
(** Legal whatever answers the queue gives. *)
Fixpoint safe (l : live) (ops : list (op K)) : Prop :=
  match ops with [] => True | o :: r => legal l o /\ forall x l', allowed l o x l' -> safe l' r end.
Fixpoint accepts (l : live) (ops : list (op K)) (outs : list (out K)) : Prop :=
  match ops, outs with
  | [], [] => True
  | o :: r, x :: y => exists l', allowed l o x l' /\ accepts l' r y
  | _, _ => False
  end.
End Spec.
Arguments without {K}. Arguments with_key {K}. Arguments least {K}. Arguments allowed {K}. Arguments legal {K}. Arguments safe {K}. Arguments accepts {K}.
