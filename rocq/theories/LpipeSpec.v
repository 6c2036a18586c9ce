(** What the pipe between C and a script is: a queue of messages. *)
Require Import List Arith NArith ZArith Bool.
Require Import Verif.Base Verif.LpipeModel.
Import ListNotations.
Open Scope N_scope.

(** The part of a message that one letter of a format and one argument are: i, s, S and r. Behind the end of a string of C is anything. *)
Inductive item := I (i : Z) | T (s behind : list N) | S_ (s : list N) | R_ (r : N).
Definition letter (x : item) : N := match x with I _ => 105 | T _ _ => 115 | S_ _ => 83 | R_ _ => 114 end.
Definition argument (x : item) : arg := match x with I i => AInt i | T s behind => AText (s ++ 0 :: behind) | S_ s => AStr s | R_ r => AReal r end.
Definition item_ok (x : item) : Prop := match x with T s _ => ~ In 0 s | _ => True end.
Definition meaning (x : item) : value := match x with I i => Int i | T s _ | S_ s => Str s | R_ r => Real r end.
(** The call [send fmt args] has the parts [xs]; or behind them an unknown letter. *)
Definition says (fmt : list N) (args : list arg) (xs : list item) : Prop :=
  Forall item_ok xs /\ fmt = map letter xs /\ exists rest, args = map argument xs ++ rest.
Definition says_not (fmt : list N) (args : list arg) : Prop :=
  exists xs ch tail rest, Forall item_ok xs /\ fmt = map letter xs ++ ch :: tail /\ args = map argument xs ++ rest /\ ~ In ch [105; 115; 83; 114].

(** The pipe: whether there is one; the messages that wait, the handler, and whether the script has subscribed. *)
Record chan := mkC { waiting : list (list value); cb : option N; open : bool }.

(** An error is answered only without memory, and nothing is lost then. *)
Definition lacks (f : option stage) : Prop := f <> None.
Definition follows1 (c : option chan) (o : op) (a : out) (c' : option chan) : Prop :=
  let now := match c with Some c => c | None => mkC [] None false end in
  match o with
  | Subscribe f =>
      (a = Script Nil /\ c' = Some (mkC (waiting now) (cb now) true)) \/
      (a = Script Error /\ lacks f /\ (c' = c \/ c' = Some (mkC (waiting now) (cb now) true)))
  | Unsubscribe f =>
      (a = Script Nil \/ a = Script Error /\ lacks f) /\ c' = match c with Some c => Some (mkC (waiting c) (cb c) false) | None => None end
  | Recv m =>
      (a = Script Error /\ In false m /\ c' = c) \/
      match c with
      | Some c => a = Script (Got (waiting c)) /\ c' = Some (mkC [] (cb c) (open c))
      | None => a = Script (Is false) /\ c' = None
      end
  | Tell v rc f =>
      c' = c /\ exists r, (r = Error /\ lacks f \/ r <> Error) /\
      match c with
      | Some c =>
          match cb c with
          | Some h => a = Called h v r /\ (r <> Error -> r = Is (rc =? 0)%Z)
          | None => a = Script r /\ (r <> Error -> r = Is true)
          end
      | None => a = Script r /\ (r <> Error -> r = Is false)
      end
  | Send fmt args m =>
      match c with
      | None => a = Rc true /\ c' = None
      | Some d =>
          (a = Rc false /\ c' = c /\ (open d = false \/ In false m \/ says_not fmt args)) \/
          (open d = true /\ a = Rc true /\ exists xs, says fmt args xs /\ c' = Some (mkC (waiting d ++ [map meaning xs]) (cb d) true))
      end
  | Handler h f =>
      (a = Rc true /\ c' = Some (mkC (waiting now) h (open now))) \/ (a = Rc false /\ lacks f /\ c' = c)
  end.
Fixpoint follows (c : option chan) (os : list op) (outs : list out) (c' : option chan) : Prop :=
  match os, outs with
  | [], [] => c' = c
  | o :: os, a :: outs => exists d, follows1 c o a d /\ follows d os outs c'
  | _, _ => False
  end.

(** What a caller has to keep: arguments as the format says, strings of C with an end; and memory for the node of the tree. *)
Definition proper (o : op) : Prop :=
  match o with
  | Send fmt args _ => (exists xs, says fmt args xs) \/ says_not fmt args
  | Subscribe f | Handler _ f => f <> Some ForNode
  | _ => True
  end.

(** The messages of the calls of C that were answered with success, in their order, and those the script has got. *)
Definition sent (o : op) (a : out) (vs : list (list value)) : Prop :=
  match o, a with
  | Send fmt args _, Rc true => exists xs, says fmt args xs /\ vs = [map meaning xs]
  | _, _ => vs = []
  end.
Inductive all_sent : list op -> list out -> list (list value) -> Prop :=
| sent_nil : all_sent [] [] []
| sent_cons : forall o a os outs v vs, sent o a v -> all_sent os outs vs -> all_sent (o :: os) (a :: outs) (v ++ vs).
Definition got (a : out) : list (list value) := match a with Script (Got l) => l | _ => [] end.
