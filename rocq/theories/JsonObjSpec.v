(** Objects as lists of members with distinct keys, and paths into values. *)
Require Import List Arith NArith ZArith.
Require Import Verif.Base Verif.StrModel Verif.JsonNumModel Verif.JsonModel Verif.JsonSpec Verif.JsonObjModel.
Import ListNotations.
Open Scope N_scope.

Section Map.
Variable V : Type.
Definition same (a b : list N) : bool := if list_eq_dec N.eq_dec a b then true else false.
Fixpoint get (k : list N) (m : list (list N * V)) : option V :=
  match m with [] => None | (k', v) :: t => if same k k' then Some v else get k t end.
(** A new key goes to the end; the value of an old one is replaced where it stands. *)
Fixpoint put (k : list N) (v : V) (m : list (list N * V)) : list (list N * V) :=
  match m with [] => [(k, v)] | (k', v') :: t => if same k k' then (k, v) :: t else (k', v') :: put k v t end.
Definition cut (k : list N) (m : list (list N * V)) : list (list N * V) := filter (fun p => negb (same k (fst p))) m.

(** The answers of a history on the member list [m]; [key] gives the bytes of a key. *)
Variable K : Type.
Variable key : K -> list N.
Fixpoint answers (m : list (list N * V)) (ops : list (jop K V)) : list (jout V) :=
  match ops with
  | [] => []
  | JUpdate k v :: t => JDone :: answers (put (key k) v m) t
  | JSearch k :: t => JFound (get (key k) m) :: answers m t
  | JRemove k :: t => JDone :: answers (cut (key k) m) t
  | JIterate :: t => JAll m :: answers m t
  end.
End Map.
Arguments get {V}. Arguments put {V}. Arguments cut {V}. Arguments answers {V K}.

(** A tree search that finds exactly the keys that are there. *)
Definition exact_look (look : list (list N) -> list N -> option nat) : Prop :=
  sound_look look /\ forall ks k, look ks k = None -> ~ In k ks.
(** No object in a value has a key twice. *)
Definition keys_once (v : json) : Prop := forall m, part (JObj m) v -> NoDup (map fst m).

(** [reach v ps w]: the steps [ps] lead from [v] to [w]: the name of a member, or the number of an element in decimal, from 0. *)
Inductive reach : json -> list (list N) -> json -> Prop :=
| r_here v : reach v [] v
| r_member m k v ps w : In (k, v) m -> reach v ps w -> reach (JObj m) (k :: ps) w
| r_element l ds v ps w : digits ds -> nth_error l (N.to_nat (dec_value ds)) = Some v -> reach v ps w -> reach (JArr l) (ds :: ps) w.

(** A step that is no number, or a number that reads the same backwards and fits 64 bits. *)
Definition even_step (ds : list N) : Prop := digits ds -> rev ds = ds /\ dec_value ds < 2 ^ 64.
