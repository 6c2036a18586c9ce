(** * Garbage collection: what is reachable, and histories *)

From Coq Require Import List NArith Bool.
From Verif Require Import Base GcModel.
Import ListNotations.
Local Open Scope N_scope.

(** The objects that must stay: the roots, those nobody suspects, and the members of
    objects that must stay. *)
Inductive stays (objects : list N) (suspect : N -> Prop) (members : N -> list N) (roots : list N) : N -> Prop :=
| stays_root x : In x objects -> In x roots -> stays objects suspect members roots x
| stays_trusted x : In x objects -> ~ suspect x -> stays objects suspect members roots x
| stays_member x y : stays objects suspect members roots x -> In y (members x) -> stays objects suspect members roots y.

(** What can be met from an object, along members. *)
Inductive from (members : N -> list N) (x : N) : N -> Prop :=
| from_self : from members x x
| from_member y z : from members x y -> In z (members y) -> from members x z.

Definition is_suspect (g : gc) (x : N) : Prop := suspected (g_rec g x) = true.

(** All members are objects of the collector. *)
Definition closed (g : gc) (members : N -> list N) (roots : list N) : Prop :=
  (forall x y, In x (g_items g) -> In y (members x) -> In y (g_items g)) /\
  (forall x, In x roots -> x <> 0 -> In x (g_items g)).

(** Histories of one collector. *)
Inductive op : Type :=
| Add (x : N)
| Suspect (x : N)
| Remove (x : N)
| Collect (members : N -> list N) (roots : list N) (releases : N -> list N).

Definition op_step (g : gc) (o : op) : option gc :=
  match o with
  | Add x => Some (gc_add g x)
  | Suspect x => gc_suspect g x
  | Remove x => gc_remove g x
  | Collect members roots releases => p <- gc_collect g members roots releases ;; Some (fst (fst p))
  end.
Fixpoint op_run (g : gc) (l : list op) : option gc :=
  match l with [] => Some g | o :: l' => g <- op_step g o ;; op_run g l' end.

(** An object is added once; a collection sees a heap of the collector's objects. *)
Definition op_legal (g : gc) (o : op) : Prop :=
  match o with
  | Add x => x <> 0 /\ ~ In x (g_items g)
  | Suspect x => In x (g_items g)
  | Remove x => True
  | Collect members roots releases => closed g members roots
  end.
Fixpoint ops_legal (g : gc) (l : list op) : Prop :=
  match l with
  | [] => True
  | o :: l' => op_legal g o /\ match op_step g o with Some g' => ops_legal g' l' | None => True end
  end.
