(** C72: the scopes of the script language are a stack of tables of names. *)
Require Import List Arith NArith Bool Sorting.Permutation.
Require Import Verif.Base Verif.LscopeModel Verif.LscopeSpec Verif.LscopeProofs.
Import ListNotations.
Open Scope N_scope.

(** The answers of every history are those of the stack of tables, as long as each operation has a meaning: a name is defined in the scope it is
    for, with what it stood for there given up; a scope that ends gives up all it defined; a name is looked for in the innermost scope and, if it
    is not local, in the outermost; there are at most 1025 scopes. No symbol is ever taken from a chain that does not have it. *)
Theorem scope_is_stack_partial : forall n0 t os,
  match run (new n0 t) os with
  | Ok (_, outs) => exists ls, follows [mkL (Some t) false []] os outs ls
  | Fault _ => exists pre o post outs ls, os = pre ++ o :: post /\ follows [mkL (Some t) false []] pre outs ls /\ ~ proper ls o
  end.
Proof.
  intros n0 t os. pose proof (run_ok os _ _ (new_ok n0 t)) as H. destruct (run (new n0 t) os) as [[c outs]|]; [|exact H].
  destruct H as (ls & F & _). eauto.
Qed.
Print Assumptions scope_is_stack_partial.

(** All that was defined is given up once, on the way or when the context ends. *)
Theorem scope_gives_up : forall n0 t os c outs, run (new n0 t) os = Ok (c, outs) ->
  exists rest, close c = Ok rest /\ Permutation (all_taken os outs) (flat_map given_up outs ++ rest).
Proof.
  intros n0 t os c outs E. destruct (run_lives os _ _ _ _ (new_ok n0 t) E) as (ls & H & P).
  exists (lives ls). split; [apply close_ok, H|]. cbn [lives flat_map defs map app] in P. now rewrite app_nil_r in P.
Qed.
Print Assumptions scope_gives_up.

(** A call that ends leaves every name as it was for its caller. *)
Theorem scope_no_trace : forall n0 t pre c outs1 os c' outs2, run (new n0 t) pre = Ok (c, outs1) -> run c os = Ok (c', outs2) -> inside 0 os outs2 0 ->
  forall name local, step c' (Search name local) = Ok (c', Found (thing_of c (search c name local))).
Proof.
  intros n0 t pre c outs1 os c' outs2 E1 E2 I name local. pose proof (run_ok pre _ _ (new_ok n0 t)) as H. rewrite E1 in H. destruct H as (ls & _ & H).
  cbn [step]. now rewrite (call_ok c ls os c' outs2 H E2 I name local).
Qed.
Print Assumptions scope_no_trace.

(** The table of symbols is an array of 371 chains: every chain that a name is looked for in is one of them, and so is every chain in use. *)
Theorem scope_table : (forall name layer, bucket_of name layer < 371) /\
  forall n0 t os c outs, run (new n0 t) os = Ok (c, outs) -> forall b, buckets c b <> [] -> b < 371.
Proof.
  assert (B : forall name layer, bucket_of name layer < 371) by (intros; unfold bucket_of; apply N.mod_lt; discriminate).
  split; [exact B|]. intros n0 t os c outs E b N. pose proof (run_ok os _ _ (new_ok n0 t)) as H. rewrite E in H. destruct H as (ls & _ & H).
  destruct (buckets c b) as [|id l] eqn:Q; [congruence|]. assert (I : In id (buckets c b)) by (rewrite Q; now left).
  destruct (proj1 (r_bucket _ _ H b id) I) as [(k & s & L1 & L2) <-].
  destruct (r_in _ _ H k s id L1 L2) as (_ & _ & -> & _). apply B.
Qed.
Print Assumptions scope_table.
Example scope_ex_table : bucket_of [97; 98] 3 = 214 /\ match run (new (fun _ => mkN [] None 0 0) [109]) [Join [97; 98] (Var, 1) true] with Ok (c, _) => buckets c 195 <> [] | Fault _ => False end.
Proof. vm_compute. split; [reflexivity|discriminate]. Qed.

(** Names [a] and [X] outside and in a call; [X] is seen in the call and [a] is not. *)
Definition mem0 : N -> node := fun _ => mkN [] None 0 0.
Definition body : list op :=
  [Push (Some [102]) false; Join [97] (Var, 30) true; Search [97] false; Ident [88]; Ident [98]; Join [97] (Var, 31) true; Push (Some [67]) true; Class;
   Upper [67] (Set_, 40) true; Class; Upper [99] (Var, 41) false; Pop; Pop].
Definition history : list op := [Join [97] (Var, 10) true; Join [88] (Set_, 11) true; Join [98] (Var, 12) true] ++ body ++ [Ident [97]; Join [98] (Var, 13) false; Search [98] true].
Example scope_ex_history : match run (new mem0 [109]) history with
  | Ok (c, outs) =>
      outs = [Freed []; Freed []; Freed [];
              Done; Freed []; Found (Some (Var, 30)); Found (Some (Set_, 11)); Found None; Freed [(Var, 30)]; Done; In_class None;
              Freed []; In_class (Some 40); Refused; Freed []; Freed [(Var, 31); (Set_, 40)]; Found (Some (Var, 10)); Freed [(Var, 12)]; Found (Some (Var, 13))] /\
      close c = Ok [(Var, 10); (Set_, 11); (Var, 13)]
  | Fault _ => False
  end.
Proof. vm_compute. split; reflexivity. Qed.
Example scope_ex_inside : match run (new mem0 [109]) [Join [97] (Var, 10) true] with
  | Ok (c, _) => match run c body with Ok (_, outs) => inside 0 body outs 0 | Fault _ => False end
  | Fault _ => False
  end.
Proof. vm_compute. repeat constructor. Qed.

(** Not every history has its answers: in the outermost scope, a definition for the scope around it writes before the array of scopes. *)
Theorem scope_is_stack_refuted : ~ (forall n0 t os, exists c outs ls, run (new n0 t) os = Ok (c, outs) /\ follows [mkL (Some t) false []] os outs ls).
Proof.
  intros H. destruct (H mem0 [109] [Upper [97] (Var, 10) true]) as (c & outs & ls & E & _). vm_compute in E. discriminate.
Qed.
Print Assumptions scope_is_stack_refuted.

(** A name does not mean what the nearest scope around says: the scopes between the innermost and the outermost are not looked at. *)
Fixpoint nearest (ls : list level) (name : list N) : option thing :=
  match ls with [] => None | l :: r => match meaning name l with Some t => Some t | None => nearest r name end end.
Theorem scope_nearest_refuted : ~ (forall n0 t os c outs ls name, run (new n0 t) os = Ok (c, outs) -> follows [mkL (Some t) false []] os outs ls ->
  thing_of c (search c name false) = nearest ls name).
Proof.
  intros H. pose (os := [Push None false; Join [97] (Var, 10) true; Push None false]).
  destruct (run (new mem0 [109]) os) as [[c outs]|] eqn:E; [|vm_compute in E; discriminate].
  specialize (H mem0 [109] os c outs [mkL None false []; mkL None false [([97], (Var, 10))]; mkL (Some [109]) false []] [97] E).
  assert (S : match run (new mem0 [109]) os with Ok (c, outs) => outs = [Done; Freed []; Done] /\ thing_of c (search c [97] false) = None | Fault _ => False end).
  { vm_compute. split; reflexivity. }
  rewrite E in S. destruct S as [-> S]. rewrite S in H. vm_compute in H.
  assert (X : None = Some (Var, 10)); [|discriminate X]. apply H.
  eexists. split; [split; reflexivity|]. eexists. split; [right; split; reflexivity|]. eexists. split; [split; reflexivity|]. reflexivity.
Qed.
Print Assumptions scope_nearest_refuted.
