(** What the red-black tree is supposed to be: a sequence of nodes sorted by key (equal keys in insertion order), and a balanced shape. *)
Require Import List Arith NArith ZArith Bool.
Require Import Verif.RbModel.
Import ListNotations.
Open Scope N_scope.

(** ** Shape: trees of coloured nodes, and the tree that links stand for. *)
Inductive tree := E | T (red : bool) (l : tree) (a : N) (r : tree).

(** [rep m q p t]: below pointer [p], whose parent is [q], the links spell [t]. Address 0 is the sentinel. *)
Fixpoint rep (m : links) (q p : N) (t : tree) : Prop :=
  match t with
  | E => p = 0
  | T c l a r => p = a /\ a <> 0 /\ par m a = q /\ red m a = c /\ rep m a (lft m a) l /\ rep m a (rgt m a) r
  end.

(** [rbt c h t]: the root of [t] is red iff [c], no red node has a red child, every path down has [h] black nodes. *)
Inductive rbt : bool -> nat -> tree -> Prop :=
| rb_E : rbt false 0 E
| rb_black c1 c2 h l a r : rbt c1 h l -> rbt c2 h r -> rbt false (S h) (T false l a r)
| rb_red h l a r : rbt false h l -> rbt false h r -> rbt true h (T true l a r).

Fixpoint inorder (t : tree) : list N := match t with E => [] | T _ l a r => inorder l ++ a :: inorder r end.
Fixpoint height (t : tree) : nat := match t with E => 0 | T _ l _ r => S (Nat.max (height l) (height r)) end.

(** ** Behaviour: the nodes in key order, and the same nodes in insertion order. *)
Section Spec.
Variable K : Type.
Variable cmp : K -> K -> Z.

(** A comparison handler that is a total preorder. *)
Definition preorder : Prop :=
  (forall a b, (cmp a b < 0 <-> 0 < cmp b a)%Z) /\ (forall a b c, (cmp a b <= 0 -> cmp b c <= 0 -> cmp a c <= 0)%Z).

Definition elems := list (N * K).
Fixpoint insert_sorted (a : N) (d : K) (l : elems) : elems :=
  match l with
  | [] => [(a, d)]
  | (b, e) :: t => if (cmp d e <? 0)%Z then (a, d) :: l else (b, e) :: insert_sorted a d t
  end.
Definition drop {B} (a : N) (l : list (N * B)) : list (N * B) := filter (fun p => negb (fst p =? a)) l.
Definition drop_ids (d l : list N) : list N := filter (fun a => negb (existsb (N.eqb a) d)) l.

(** The node after [a]; 0 is the null node. *)
Fixpoint next_of (a : N) (l : elems) : N :=
  match l with [] => 0 | (b, _) :: t => if b =? a then hd 0 (map fst t) else next_of a t end.

(** An iteration meets every node once, in insertion order, except those deleted by the handler before their turn. *)
Fixpoint visit (fuel : nat) (dels : N -> list N) (todo : list N) : list N :=
  match fuel, todo with
  | S f, a :: t => a :: visit f dels (drop_ids (dels a) t)
  | _, _ => []
  end.

Record state := mkS { sorted : elems; order : list N }.
(** [spec s o out s']: in state [s], call [o] may answer [out] and leave [s']. *)
Inductive spec (s : state) : rop K -> rout -> state -> Prop :=
| sp_insert a d : spec s (RInsert a d) ONone (mkS (insert_sorted a d (sorted s)) (order s ++ [a]))
| sp_delete a : spec s (RDelete a) ONone (mkS (drop a (sorted s)) (drop_ids [a] (order s)))
| sp_found k a d : In (a, d) (sorted s) -> cmp k d = 0%Z -> spec s (RSearch k) (ONode a) s
| sp_absent k : (forall a d, In (a, d) (sorted s) -> cmp k d <> 0%Z) -> spec s (RSearch k) (ONode 0) s
| sp_min : spec s RMin (ONode (hd 0 (map fst (sorted s)))) s
| sp_successor a : spec s (RSuccessor a) (ONode (next_of a (sorted s))) s
| sp_count : spec s RCount (ONum (N.of_nat (length (sorted s)))) s
| sp_reset : spec s RReset ONone (mkS [] [])
| sp_iterate dels stop :
    let vs := visit (length (order s)) dels (order s) in
    let gone := flat_map dels vs in
    spec s (RIterate dels stop) (ONodes vs true)
      (mkS (filter (fun p => negb (existsb (N.eqb (fst p)) gone)) (sorted s)) (drop_ids gone (order s))).

Inductive spec_run : state -> list (rop K) -> list rout -> state -> Prop :=
| run_nil s : spec_run s [] [] s
| run_cons s o out s1 ops outs s2 : spec s o out s1 -> spec_run s1 ops outs s2 -> spec_run s (o :: ops) (out :: outs) s2.

(** A legal call inserts a node that is not in the tree (and not the sentinel), deletes or asks the successor of a node that is, and iterates
    with a handler that never fails and deletes only nodes that are in the tree. *)
Fixpoint legal_visit (fuel : nat) (dels : N -> list N) (todo present : list N) : Prop :=
  match fuel, todo with
  | S f, a :: t => NoDup (dels a) /\ incl (dels a) present /\ legal_visit f dels (drop_ids (dels a) t) (drop_ids (dels a) present)
  | _, _ => True
  end.
Definition legal (s : state) (o : rop K) : Prop :=
  match o with
  | RInsert a _ => a <> 0 /\ ~ In a (map fst (sorted s))
  | RDelete a | RSuccessor a => In a (map fst (sorted s))
  | RIterate dels stop => (forall a, stop a = false) /\ legal_visit (length (order s)) dels (order s) (order s)
  | _ => True
  end.
(** The states a legal history leads to. *)
Definition spec_next (s : state) (o : rop K) : state :=
  match o with
  | RInsert a d => mkS (insert_sorted a d (sorted s)) (order s ++ [a])
  | RDelete a => mkS (drop a (sorted s)) (drop_ids [a] (order s))
  | RReset => mkS [] []
  | RIterate dels _ =>
      let gone := flat_map dels (visit (length (order s)) dels (order s)) in
      mkS (filter (fun p => negb (existsb (N.eqb (fst p)) gone)) (sorted s)) (drop_ids gone (order s))
  | _ => s
  end.
Fixpoint legal_run (s : state) (ops : list (rop K)) : Prop :=
  match ops with [] => True | o :: t => legal s o /\ legal_run (spec_next s o) t end.
End Spec.
Arguments preorder {K}. Arguments insert_sorted {K}. Arguments mkS {K}. Arguments sorted {K}. Arguments order {K}.
Arguments spec {K}. Arguments spec_run {K}. Arguments legal {K}. Arguments legal_run {K}. Arguments spec_next {K}. Arguments next_of {K}.
