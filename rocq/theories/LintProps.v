(** C76: the operators of integers in the script language. *)
Require Import ZArith Bool List Lia.
Require Import Verif.LintModel Verif.LintSpec Verif.LintProofs.
Open Scope Z_scope.

(** An operator on two integers gives the integer it should and that fits, or an error for a division by zero, if C says what it does. *)
Theorem int_exact_partial : forall o a b, int64 a -> int64 b -> compares o = false -> defined o a b ->
  (exists c, binary o a (Int b) = IntV c /\ int64 c /\ exact o a b c) \/ (binary o a (Int b) = DivZero /\ b = 0 /\ (o = Div \/ o = Mod)).
Proof.
  intros o a b A B C D. pose proof (prim_ok o a b A B C) as P. cbn [binary].
  destruct (prim o a b) eqn:E; try contradiction; [left; exists i; tauto|right; tauto].
Qed.
Print Assumptions int_exact_partial.
(** So the answer is the integer that the specification gives and no other, and an operator that gives an integer gives that one. *)
Theorem int_exact_only_partial : forall o a b, int64 a -> int64 b -> compares o = false -> defined o a b ->
  forall c, binary o a (Int b) = IntV c <-> exact o a b c.
Proof.
  intros o a b A B C D c.
  assert (P : 0 <= b \/ o <> Rmov) by (destruct o; try (right; discriminate); cbn [defined] in D; left; lia).
  destruct (int_exact_partial o a b A B C D) as [(d & E & _ & X)|(E & Z0 & O)].
  - split; intros H.
    + rewrite E in H. injection H as <-. exact X.
    + rewrite E. f_equal. exact (exact_unique o a b d c P X H).
  - rewrite E. split; [discriminate|]. intros H. exfalso. subst b. destruct O as [-> | ->]; cbn [exact] in H; destruct H as (r & _ & L & _); lia.
Qed.
Print Assumptions int_exact_only_partial.
(** A comparison of two integers says whether it holds. *)
Theorem int_compare : forall o a b, compares o = true -> exists c, binary o a (Int b) = BoolV c /\ (c = true <-> holds o a b).
Proof. intros o a b C. exact (prim_compare o a b C). Qed.
Print Assumptions int_compare.
(** An assignment with an operator leaves in an integer variable what the operator gives, and the variable as it was if that is no integer. *)
Theorem int_assign : forall o a b, compares o = false ->
  snd (assign o (Int a) b) = binary o a (Int b) /\ fst (assign o (Int a) b) = match binary o a (Int b) with IntV c => Int c | _ => Int a end.
Proof. intros o a b C. cbn [assign binary]. destruct (prim o a b); auto. Qed.
Print Assumptions int_assign.
(** Variables of other types change only into an integer that is the answer. *)
Theorem int_assign_other : forall o x b, match assign o x b with (x', IntV c) => x' = Int c | (x', _) => x' = x end.
Proof.
  intros o x b. unfold assign. destruct x as [|a|a|a m|a| | |]; cbn [toint]; try reflexivity; try (destruct (prim o a b); reflexivity); destruct o; try reflexivity; destruct (prim _ a b); reflexivity.
Qed.
Print Assumptions int_assign_other.
(** The operators with one operand: the variable afterwards, and the answer *)
Theorem int_unary_partial : forall a, int64 a ->
  (int64 (a + 1) -> unary Sinc a = (a + 1, IntV a) /\ unary Pinc a = (a + 1, IntV (a + 1))) /\
  (int64 (a - 1) -> unary Sdec a = (a - 1, IntV a) /\ unary Pdec a = (a - 1, IntV (a - 1))) /\
  (int64 (- a) -> unary Neg a = (a, IntV (- a))) /\
  (exists c, unary Rev a = (a, IntV c) /\ int64 c /\ forall n, 0 <= n -> Z.testbit c n = negb (Z.testbit a n)) /\
  (exists c, unary Not a = (a, BoolV c) /\ (c = true <-> a = 0)).
Proof.
  intros a A. split; [|split; [|split; [|split]]].
  - intros F. apply fits_int64 in F. cbn [unary]. rewrite F. auto.
  - intros F. apply fits_int64 in F. cbn [unary]. rewrite F. auto.
  - intros F. apply fits_int64 in F. cbn [unary]. unfold checked. rewrite F. reflexivity.
  - exists (Z.lnot a). split; [reflexivity|]. split; [unfold int64, Z.lnot in *; lia|]. intros n N. apply Z.lnot_spec. exact N.
  - exists (a =? 0). split; [reflexivity|]. apply Z.eqb_eq.
Qed.
Print Assumptions int_unary_partial.
(** An integer is not combined with a truth value, nil, a function, an array or an object: it differs from each, and other operators refuse. *)
Theorem int_other_types : forall o a v, In v (Nil :: Boolean true :: Boolean false :: Obj :: Func :: Arr :: nil) ->
  match o with Eq => binary o a v = BoolV false | Ne => binary o a v = BoolV true | _ => binary o a v = Refused end.
Proof. intros o a v H. repeat (destruct H as [<-|H]; [destruct o; reflexivity|]). destruct H. Qed.
Print Assumptions int_other_types.
(** A string counts as the number that it begins with, except where the operator of strings takes over or the operator is refused; a real counts as its
    part before the point for the operators of bits. The same in an assignment. *)
Theorem int_counts_as : forall o a i m,
  (In o (Sub :: Mul :: Div :: Mod :: Lmov :: Rmov :: Eq :: Ne :: nil) -> binary o a (Str i) = binary o a (Int i)) /\
  (In o (Or :: And :: Xor :: nil) -> binary o a (Real i m) = binary o a (Int i)) /\
  (In o (Or :: And :: Xor :: Lmov :: Rmov :: Mod :: nil) -> snd (assign o (Real i m) a) = snd (assign o (Int i) a)).
Proof.
  intros o a i m. split; [|split]; intros H; repeat (destruct H as [<-|H]; [try reflexivity|]); try destruct H; cbn [assign toint snd];
    destruct (prim _ i a); reflexivity.
Qed.
Print Assumptions int_counts_as.

Example int_ex : (** the ends of the range, and numbers with signs *)
  defined Sub (-9223372036854775807) 1 /\ binary Sub (-9223372036854775807) (Int 1) = IntV (-9223372036854775808) /\
  defined Div (-7) 2 /\ binary Div (-7) (Int 2) = IntV (-3) /\ binary Mod (-7) (Int 2) = IntV (-1) /\ binary Div 5 (Int 0) = DivZero /\
  defined Lmov 3 61 /\ binary Lmov 3 (Int 61) = IntV 6917529027641081856 /\ binary Rmov (-5) (Int 1) = IntV (-3) /\
  binary And (-2) (Int 7) = IntV 6 /\ binary Xor (-1) (Int 5) = IntV (-6) /\ binary Or (-8) (Int 3) = IntV (-5) /\
  binary Le (-1) (Int 1) = BoolV true /\ assign Mul (Int 6) 7 = (Int 42, IntV 42) /\ assign Mod (Int 6) 0 = (Int 6, DivZero) /\
  binary Sub 50 (Str 8) = IntV 42 /\ binary Xor 5 (Real 6 true) = IntV 3 /\ assign Mod (Real 17 true) 5 = (Int 2, IntV 2) /\
  unary Sdec 0 = (-1, IntV 0) /\ unary Rev 0 = (0, IntV (-1)).
Proof. unfold defined, int64. repeat split; try lia; intros (C & _); discriminate C. Qed.

(** ** What does not hold *)
(** 5 == 5.5 is true, as is 5 == '5', although 5 < 5.5 is given to the operator of reals; -0.5 equals 0. *)
Theorem int_equal_refuted : binary Eq 5 (Real 5 true) = BoolV true /\ binary Ne 5 (Real 5 true) = BoolV false /\ binary Lt 5 (Real 5 true) = ByReal /\ binary Eq 0 (Real 0 true) = BoolV true.
Proof. repeat split. Qed.
Print Assumptions int_equal_refuted.
(** No error is given where the result does not fit, nor for a shift by too many places or of a negative number to the left: C does not say what
    happens; the smallest integer divided by -1 ends most programs. *)
Theorem int_undefined_refuted :
  binary Plus 9223372036854775807 (Int 1) = Undefined /\ binary Div (-9223372036854775808) (Int (-1)) = Undefined /\
  binary Mod (-9223372036854775808) (Int (-1)) = Undefined /\ binary Lmov 1 (Int 64) = Undefined /\ binary Rmov 1 (Int (-1)) = Undefined /\
  binary Lmov (-1) (Int 1) = Undefined /\ snd (unary Neg (-9223372036854775808)) = Undefined /\ snd (unary Sinc 9223372036854775807) = Undefined.
Proof. vm_compute. repeat split. Qed.
Print Assumptions int_undefined_refuted.
(** The two results of a string: with + a text, with - a number. *)
Theorem int_string_refuted : binary Plus 5 (Str 3) = ByString /\ binary Sub 5 (Str 3) = IntV 2 /\ binary Or 5 (Str 3) = Refused /\ binary Or 5 (Real 2 true) = IntV 7.
Proof. repeat split. Qed.
Print Assumptions int_string_refuted.
