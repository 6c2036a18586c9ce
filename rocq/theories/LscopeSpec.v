(** What the scopes of the script language are: a stack of tables of names. *)
Require Import List Arith NArith Bool.
Require Import Verif.Base Verif.LscopeModel.
Import ListNotations.
Open Scope N_scope.

(** A scope: its title, whether it is that of a set, and what each name stands for, the oldest first. *)
Record level := mkL { title : option (list N); is_class : bool; defs : list (list N * thing) }.
Definition is_name (name : list N) (d : list N * thing) : bool := if list_eq_dec N.eq_dec (fst d) name then true else false.
Definition meaning (name : list N) (l : level) : option thing := option_map snd (find (is_name name) (defs l)).
(** A name gets a new meaning, and what it stood for is given up. *)
Definition define (name : list N) (t : thing) (l : level) : level :=
  mkL (title l) (is_class l) (filter (fun d => negb (is_name name d)) (defs l) ++ [(name, t)]).
Definition replaced (name : list N) (l : level) : list thing := match meaning name l with Some t => [t] | None => [] end.
(** A name in the innermost scope, or else, if it is not a local one, in the outermost; the scopes between are not looked at. *)
Definition lookup (ls : list level) (name : list N) (local : bool) : option thing :=
  match ls with
  | [] => None
  | l :: r =>
      match meaning name l with
      | Some t => Some t
      | None => if local then None else meaning name (last r l)
      end
  end.
Definition capital (name : list N) : bool := match name with b :: _ => (65 <=? b) && (b <=? 90) | [] => false end.

(** One step: the scopes before, the operation, its answer, the scopes afterwards. Only without memory may a definition be refused. *)
Definition follows1 (ls : list level) (o : op) (a : out) (ls' : list level) : Prop :=
  match o with
  | Push t k =>
      if (length ls <? 1025)%nat then a = Done /\ ls' = mkL t k [] :: ls else a = Refused /\ ls' = ls
  | Pop => match ls with [] => a = Freed [] /\ ls' = [] | l :: r => a = Freed (map snd (defs l)) /\ ls' = r end
  | Join name t m =>
      (a = Refused /\ m = false /\ ls' = ls) \/
      match ls with l :: r => a = Freed (replaced name l) /\ ls' = define name t l :: r | [] => False end
  | Upper name t m =>
      (a = Refused /\ m = false /\ ls' = ls) \/
      match ls with x :: l :: r => a = Freed (replaced name l) /\ ls' = x :: define name t l :: r | _ => False end
  | Search name local => a = Found (lookup ls name local) /\ ls' = ls
  | Ident name => a = Found (lookup ls name (negb (capital name))) /\ ls' = ls
  | Class =>
      ls' = ls /\
      match ls with
      | [] => False
      | l :: r =>
          if is_class l then
            match r, title l with
            | u :: _, Some name => exists p, a = In_class p /\ option_map (pair Set_) p = meaning name u
            | _, _ => False
            end
          else a = In_class None
      end
  end.
Fixpoint follows (ls : list level) (os : list op) (outs : list out) (ls' : list level) : Prop :=
  match os, outs with
  | [], [] => ls' = ls
  | o :: os, a :: outs => exists l, follows1 ls o a l /\ follows l os outs ls'
  | _, _ => False
  end.
(** Whether an operation has a meaning: a definition needs its scope; the set whose scope this is has to be there, or not be defined at all, but
    must not be a variable. *)
Definition proper (ls : list level) (o : op) : Prop :=
  match o with
  | Join _ _ _ => ls <> []
  | Upper _ _ _ => (2 <= length ls)%nat
  | Class =>
      match ls with
      | [] => False
      | l :: r =>
          is_class l = true ->
          match r, title l with u :: _, Some name => forall p, meaning name u <> Some (Var, p) | _, _ => False end
      end
  | _ => True
  end.

(** What was defined, and what was given up, in a history and its answers. *)
Definition taken (o : op) (a : out) : list thing :=
  match o, a with Join _ t _, Freed _ | Upper _ t _, Freed _ => [t] | _, _ => [] end.
Fixpoint all_taken (os : list op) (outs : list out) : list thing :=
  match os, outs with o :: os, a :: outs => taken o a ++ all_taken os outs | _, _ => [] end.
Definition given_up (a : out) : list thing := match a with Freed l => l | _ => [] end.

(** A history that stays above the scopes it starts with: [d] scopes are above them, and [e] afterwards. *)
Fixpoint inside (d : nat) (os : list op) (outs : list out) (e : nat) : Prop :=
  match os, outs with
  | [], [] => d = e
  | o :: os, a :: outs =>
      match o with
      | Push _ _ => inside (match a with Done => S d | _ => d end) os outs e
      | Pop => (1 <= d)%nat /\ inside (d - 1) os outs e
      | Join _ _ _ => (1 <= d)%nat /\ inside d os outs e
      | Upper _ _ _ => (2 <= d)%nat /\ inside d os outs e
      | _ => inside d os outs e
      end
  | _, _ => False
  end.
