(** Abstract lists and stacks: what the chain-based containers are supposed to be. *)
Require Import List Arith NArith Bool Permutation.
Require Import Verif.ChainModel.
Import ListNotations.

(** Several lists over one set of nodes: each operation changes exactly one list. *)
Definition upd_at {A} (f : nat -> A) (i : nat) (v : A) : nat -> A := fun j => if j =? i then v else f j.

Definition l_spec (f : nat -> list N) (o : lop) : nat -> list N :=
  match o with
  | LAdd s n => upd_at f s (f s ++ [n])
  | LRemove s n => upd_at f s (remove N.eq_dec n (f s))
  end.
(** A legal call adds a node that is in no list, or removes a node from the list it is in. *)
Definition l_legal (f : nat -> list N) (o : lop) : Prop :=
  match o with LAdd _ n => forall s, ~ In n (f s) | LRemove s n => In n (f s) end.
Fixpoint l_spec_run (f : nat -> list N) (ops : list lop) : nat -> list N :=
  match ops with [] => f | o :: t => l_spec_run (l_spec f o) t end.
Fixpoint l_legal_run (f : nat -> list N) (ops : list lop) : Prop :=
  match ops with [] => True | o :: t => l_legal f o /\ l_legal_run (l_spec f o) t end.

(** Several stacks, top first. [s_spec copy f o out f']: with contents [f], operation [o] may answer [out] and leave [f'].
    Push and dup may be refused (out of memory, or a failing copy handler), and then change nothing: a refused dup
    releases exactly the copies it had already made. Overwriting a stack variable by dup leaks the old nodes. *)
Section S.
Context {D : Type}.
Fixpoint copies (copy : D -> option D) (l : list D) : option (list D) :=
  match l with
  | [] => Some []
  | v :: t => match copy v, copies copy t with Some a, Some b => Some (a :: b) | _, _ => None end
  end.
Inductive s_spec (copy : D -> option D) (f : nat -> list D) : sop D -> sout D -> (nat -> list D) -> Prop :=
| sp_push i v : s_spec copy f (SPush i v) (SoStatus true) (upd_at f i (v :: f i))
| sp_push_fail i v : s_spec copy f (SPush i v) (SoStatus false) f
| sp_pop i : s_spec copy f (SPop i) (SoPtr (hd_error (f i))) (upd_at f i (tl (f i)))
| sp_top i : s_spec copy f (STop i) (SoPtr (hd_error (f i))) f
| sp_empty i : s_spec copy f (SEmpty i) (SoBool (match f i with [] => true | _ => false end)) f
| sp_count i : s_spec copy f (SCount i) (SoNum (N.of_nat (length (f i)))) f
| sp_iterate i : s_spec copy f (SIterate i) (SoList (f i)) f
| sp_dup i j l : copies copy (f i) = Some l -> s_spec copy f (SDup i j) (SoDup true []) (upd_at f j l)
| sp_dup_fail i j l : (exists pre d m, rev (f i) = pre ++ d /\ copies copy pre = Some m /\ Permutation m l) ->
    s_spec copy f (SDup i j) (SoDup false l) f
| sp_destroy i : s_spec copy f (SDestroy i) (SoFreed (rev (f i))) (upd_at f i []).
Inductive s_spec_run (copy : D -> option D) : (nat -> list D) -> list (sop D) -> list (sout D) -> Prop :=
| sr_nil f : s_spec_run copy f [] []
| sr_cons f o out f' ops outs : s_spec copy f o out f' -> s_spec_run copy f' ops outs ->
    s_spec_run copy f (o :: ops) (out :: outs).
End S.
