Require Import List Arith NArith Bool Lia.
Require Import ZifyBool ZifyNat ZifyN.
Require Import Verif.Base Verif.LexModel Verif.LexSpec.
Import ListNotations.
Local Open Scope N_scope.

Lemma is_letter_iff : forall c, is_letter c = true <-> letter c.
Proof. intros c; unfold is_letter, isalpha, letter; lia. Qed.
Lemma isdigit_iff : forall c, isdigit c = true <-> dec_digit c.
Proof. intros c; unfold isdigit, dec_digit; lia. Qed.
Lemma isalpha_iff : forall c, isalpha c = true <-> letter c /\ c <> 95.
Proof. intros c; unfold isalpha, letter; lia. Qed.
Lemma is_oct_iff : forall c, is_oct c = true <-> oct_digit c.
Proof. intros c; unfold is_oct, oct_digit; lia. Qed.
Lemma is_hex_iff : forall c, is_hex c = true <-> hex_digit c.
Proof. intros c; unfold is_hex, isdigit, hex_digit; lia. Qed.

(** ** Scanning *)
Definition head_not (p : N -> bool) (r : bytes) : Prop := match r with [] => True | c :: _ => p c = false end.
Definition left_of (r : bytes) : lx := match r with [] => None | _ => Some r end.
Lemma scan_app : forall p a r, plain (a ++ r) -> Forall (fun c => p c = true) a -> head_not p r -> scan p (a ++ r) = Some (a, left_of r).
Proof.
  intros p a; induction a as [|c a IH]; intros r P F H.
  - cbn [app] in *. destruct r as [|c r]; [reflexivity|]. cbn [scan head_not left_of] in *.
    pose proof (Forall_inv P) as Q; cbv beta in Q.
    replace (c =? ERR) with false by (unfold ERR; lia). replace (c =? EOF) with false by (unfold EOF; lia). rewrite H. reflexivity.
  - cbn [app] in *. cbn [scan].
    pose proof (Forall_inv P) as Q; cbv beta in Q.
    replace (c =? ERR) with false by (unfold ERR; lia). replace (c =? EOF) with false by (unfold EOF; lia).
    rewrite (Forall_inv F). rewrite IH; [reflexivity|apply (Forall_inv_tail P)|apply (Forall_inv_tail F)|exact H].
Qed.
Lemma scan_inv : forall p l, plain l -> exists a r, l = a ++ r /\ scan p l = Some (a, left_of r) /\ Forall (fun c => p c = true) a /\ head_not p r.
Proof.
  intros p l; induction l as [|c l IH]; intros P.
  - exists [], []. repeat split; constructor.
  - destruct (p c) eqn:E.
    + destruct (IH (Forall_inv_tail P)) as (a & r & E1 & E2 & E3 & E4).
      exists (c :: a), r. assert (F : Forall (fun c => p c = true) (c :: a)) by (constructor; auto).
      repeat split; auto; [rewrite E1; reflexivity|]. rewrite E1. rewrite E1 in P. change (c :: a ++ r) with ((c :: a) ++ r) in *. apply scan_app; auto.
    + exists [], (c :: l). repeat split; auto. apply (scan_app p [] (c :: l)); auto.
Qed.

(** ** Numbers *)
Lemma forallb_Forall : forall (p : N -> bool) (P : N -> Prop) l, (forall c, p c = true <-> P c) -> forallb p l = true <-> Forall P l.
Proof.
  intros p P l H; induction l as [|c l IH]; cbn [forallb]; split; intros F; try constructor.
  - apply andb_prop in F. apply H, F.
  - apply andb_prop in F. apply IH, F.
  - rewrite (proj2 (H c) (Forall_inv F)). apply IH, (Forall_inv_tail F).
Qed.
Lemma after_dec_app : forall a r, Forall dec_digit a -> head_not isdigit r -> after_dec (a ++ r) = r.
Proof.
  intros a; induction a as [|c a IH]; intros r F H; cbn [app].
  - destruct r as [|c r]; [reflexivity|]. cbn [after_dec]. cbn in H. rewrite H. reflexivity.
  - cbn [after_dec]. rewrite (proj2 (isdigit_iff c) (Forall_inv F)). apply IH; [apply (Forall_inv_tail F)|exact H].
Qed.
Lemma after_dec_inv : forall l, exists a r, l = a ++ r /\ after_dec l = r /\ Forall dec_digit a /\ head_not isdigit r.
Proof.
  intros l; induction l as [|c l IH].
  - exists [], []. repeat split; constructor.
  - destruct (isdigit c) eqn:E.
    + destruct IH as (a & r & E1 & E2 & E3 & E4). exists (c :: a), r. rewrite E1 at 1. repeat split; auto.
      * cbn [after_dec]. rewrite E. exact E2.
      * constructor; [apply isdigit_iff; exact E|exact E3].
    + exists [], (c :: l). repeat split; auto. cbn [after_dec]. rewrite E. reflexivity.
Qed.
Lemma after_oct_inv : forall l, exists a r, l = a ++ r /\ after_oct l = r /\ Forall oct_digit a /\ head_not is_oct r.
Proof.
  intros l; induction l as [|c l IH].
  - exists [], []. repeat split; constructor.
  - destruct (is_oct c) eqn:E.
    + destruct IH as (a & r & E1 & E2 & E3 & E4). exists (c :: a), r. rewrite E1 at 1. repeat split; auto.
      * cbn [after_oct]. rewrite E. exact E2.
      * constructor; [apply is_oct_iff; exact E|exact E3].
    + exists [], (c :: l). repeat split; auto. cbn [after_oct]. rewrite E. reflexivity.
Qed.
Definition dot_or_digit (c : N) : bool := isdigit c || (c =? 46).
Lemma one_dot : forall u, forallb dot_or_digit u = true -> length (filter (fun c => c =? 46) u) = 1%nat ->
  exists a b, u = a ++ 46 :: b /\ Forall dec_digit a /\ Forall dec_digit b.
Proof.
  intros u; induction u as [|c u IH]; intros F L; [discriminate|].
  cbn [forallb filter] in *. apply andb_prop in F. destruct F as [F1 F2]. unfold dot_or_digit in F1.
  destruct (c =? 46) eqn:E.
  - apply N.eqb_eq in E; subst c. exists [], u. repeat split; [constructor|].
    cbn [length] in L. assert (Z : length (filter (fun c => c =? 46) u) = 0%nat) by lia. clear L IH.
    induction u as [|d u IHu]; [constructor|]. cbn [forallb filter] in *. apply andb_prop in F2. destruct F2 as [G1 G2]. unfold dot_or_digit in G1.
    destruct (d =? 46); [discriminate|]. constructor; [apply isdigit_iff; destruct (isdigit d); auto; discriminate|auto].
  - destruct (IH F2 L) as (a & b & E1 & E2 & E3). exists (c :: a), b. subst u. repeat split; auto.
    constructor; auto. apply isdigit_iff. destruct (isdigit c); auto; discriminate.
Qed.
Lemma digits_app_filter : forall a, Forall dec_digit a -> filter (fun c => c =? 46) a = [].
Proof.
  intros a F; induction F as [|c a H F IH]; [reflexivity|]. cbn [filter]. unfold dec_digit in H. replace (c =? 46) with false by lia. exact IH.
Qed.
Lemma digits_dot : forall a, Forall dec_digit a -> forallb dot_or_digit a = true.
Proof.
  intros a F; induction F as [|c a H F IH]; [reflexivity|]. cbn [forallb]. unfold dot_or_digit at 1. rewrite (proj2 (isdigit_iff c) H). exact IH.
Qed.
Lemma after_oct_real : forall a b, Forall dec_digit a -> exists a', after_oct (a ++ 46 :: b) = a' ++ 46 :: b /\ Forall dec_digit a'.
Proof.
  intros a b F; induction F as [|c a H F IH].
  - exists []. split; [reflexivity|constructor].
  - cbn [app after_oct]. destruct (is_oct c).
    + exact IH.
    + exists (c :: a). split; [reflexivity|constructor; auto].
Qed.
Lemma oct_dec : forall s, Forall oct_digit s -> Forall dec_digit s.
Proof. intros s F; eapply Forall_impl; [|exact F]. intros c H; unfold oct_digit, dec_digit in *; lia. Qed.
Lemma after_oct_all : forall s, Forall oct_digit s -> after_oct s = [].
Proof.
  intros s F; induction F as [|c s H F IH]; [reflexivity|]. cbn [after_oct]. rewrite (proj2 (is_oct_iff c) H). exact IH.
Qed.
Lemma number_real0 : forall x r, x <> 120 -> (exists a b, x :: r = a ++ 46 :: b /\ Forall dec_digit a /\ Forall dec_digit b) ->
  number (48 :: x :: r) = Some (TReal (48 :: x :: r)).
Proof.
  intros x r X (a & b & E & A & B). cbn [number]. replace (x =? 120) with false by lia.
  destruct (after_oct_real a b A) as (a' & E' & A'). rewrite E, E'. destruct (a' ++ 46 :: b) as [|y u] eqn:U; [destruct a'; discriminate|].
  rewrite <- U. clear U.
  change (fun c : N => isdigit c || (c =? 46)) with dot_or_digit. rewrite forallb_app. cbn [forallb]. rewrite (digits_dot a' A'), (digits_dot b B). cbn [andb negb dot_or_digit isdigit].
  rewrite filter_app. cbn [filter]. rewrite (digits_app_filter a' A'), (digits_app_filter b B). reflexivity.
Qed.
Lemma number_other : forall s, (forall x r, s <> 48 :: x :: r) ->
  number s = match after_dec s with [] => Some (TDec s) | c :: r => if (c =? 46) && forallb isdigit r then Some (TReal s) else None end.
Proof.
  intros s H. destruct s as [|c [|x r]]; [reflexivity| |].
  - destruct c as [|[p|p|]]; try reflexivity; repeat (destruct p as [p|p|]; try reflexivity).
  - destruct (N.eq_dec c 48) as [E|E]; [subst; elim (H x r eq_refl)|].
    destruct c as [|p]; [reflexivity|]. cbn [number].
    repeat (destruct p as [p|p|]; try reflexivity). elim E; reflexivity.
Qed.
Lemma number_spelled : forall t s, numeral_of t s -> number s = Some t.
Proof.
  intros t s H. destruct H as [|c s C F|s N F|s N F|a b N A B].
  - reflexivity.
  - rewrite number_other by (intros x r E; injection E as E1 E2; lia).
    assert (G : Forall dec_digit (c :: s)) by (constructor; [unfold dec_digit; lia|exact F]).
    rewrite <- (app_nil_r (c :: s)) at 1. rewrite after_dec_app; [reflexivity|exact G|exact I].
  - destruct s as [|x r]; [elim N; reflexivity|]. cbn [number].
    pose proof (Forall_inv F) as Q; unfold oct_digit in Q. replace (x =? 120) with false by lia. rewrite after_oct_all by exact F. reflexivity.
  - destruct s as [|x r]; [elim N; reflexivity|]. cbn [number N.eqb Pos.eqb].
    rewrite (proj2 (forallb_Forall is_hex hex_digit (x :: r) is_hex_iff) F). reflexivity.
  - destruct a as [|c a]; [elim N; reflexivity|]. destruct (N.eq_dec c 48) as [E|E].
    + subst c. cbn [app]. destruct (a ++ 46 :: b) as [|x r] eqn:U; [destruct a; discriminate|].
      apply number_real0.
      * destruct a as [|d a]; cbn [app] in U; injection U as U1 U2; [subst; discriminate|]. subst d.
        pose proof (Forall_inv (Forall_inv_tail A)) as Q; unfold dec_digit in Q; lia.
      * exists a, b. rewrite U. repeat split; auto. apply (Forall_inv_tail A).
    + rewrite number_other by (intros x r G; cbn [app] in G; injection G as G1 G2; lia).
      rewrite after_dec_app; [|exact A|reflexivity]. cbn [N.eqb Pos.eqb andb].
      rewrite (proj2 (forallb_Forall isdigit dec_digit b isdigit_iff) B). reflexivity.
Qed.
Lemma number_inv : forall c s t, dec_digit c -> number (c :: s) = Some t -> numeral_of t (c :: s).
Proof.
  intros c s t C H. destruct (N.eq_dec c 48) as [E|E].
  - subst c. destruct s as [|x r]; [injection H as H; subst; constructor|].
    cbn [number] in H. destruct (x =? 120) eqn:X.
    + apply N.eqb_eq in X; subst x. destruct r as [|y r]; [discriminate|]. destruct (forallb is_hex (y :: r)) eqn:F; [|discriminate].
      injection H as H; subst t. constructor; [discriminate|]. apply (forallb_Forall is_hex hex_digit _ is_hex_iff). exact F.
    + destruct (after_oct_inv (x :: r)) as (a & u & E1 & E2 & E3 & E4). rewrite E2 in H.
      destruct u as [|y u].
      * injection H as H; subst t. rewrite app_nil_r in E1. rewrite E1. constructor; [subst a; discriminate|exact E3].
      * change (fun c : N => isdigit c || (c =? 46)) with dot_or_digit in H. destruct (forallb dot_or_digit (y :: u)) eqn:D; [|discriminate]. cbn [negb] in H.
        destruct (Nat.eqb _ 1) eqn:L; [|discriminate]. injection H as H; subst t.
        apply Nat.eqb_eq in L. destruct (one_dot _ D L) as (a2 & b & F1 & F2 & F3).
        rewrite E1, F1. rewrite app_assoc. change (48 :: (a ++ a2) ++ 46 :: b) with ((48 :: a ++ a2) ++ 46 :: b).
        constructor; [discriminate| |exact F3]. constructor; [exact C|]. apply Forall_app; split; [apply oct_dec; exact E3|exact F2].
  - rewrite number_other in H by (intros x r G; injection G as G1 G2; lia).
    destruct (after_dec_inv (c :: s)) as (a & u & E1 & E2 & E3 & E4). rewrite E2 in H.
    destruct u as [|y u].
    + injection H as H; subst t. rewrite app_nil_r in E1. subst a. constructor; [unfold dec_digit in C; lia|apply (Forall_inv_tail E3)].
    + destruct (y =? 46) eqn:Y; [|discriminate]. cbn [andb] in H. apply N.eqb_eq in Y; subst y.
      destruct (forallb isdigit u) eqn:D; [|discriminate]. injection H as H; subst t. rewrite E1. constructor; auto.
      * destruct a; [|discriminate]. cbn [app] in E1. injection E1 as E1 _. subst c. unfold dec_digit in C; lia.
      * apply (forallb_Forall isdigit dec_digit _ isdigit_iff). exact D.
Qed.
Definition num_char (c : N) : bool := isdigit c || isalpha c || (c =? 46).
Lemma numeral_chars : forall t s, numeral_of t s -> Forall (fun c => num_char c = true) s /\ exists c r, s = c :: r /\ dec_digit c.
Proof.
  assert (D : forall s, Forall dec_digit s -> Forall (fun c => num_char c = true) s).
  { intros s F; eapply Forall_impl; [|exact F]. intros c H; unfold num_char. rewrite (proj2 (isdigit_iff c) H). reflexivity. }
  intros t s H. destruct H as [|c s C F|s N F|s N F|a b N A B].
  - split; [repeat constructor|]. exists 48, []. split; [reflexivity|unfold dec_digit; lia].
  - assert (dec_digit c) by (unfold dec_digit; lia). split; [apply D; constructor; auto|]. exists c, s. auto.
  - split; [apply D; constructor; [unfold dec_digit; lia|apply oct_dec; exact F]|]. exists 48, s. split; [reflexivity|unfold dec_digit; lia].
  - split; [|exists 48, (120 :: s); split; [reflexivity|unfold dec_digit; lia]].
    constructor; [reflexivity|]. constructor; [reflexivity|]. eapply Forall_impl; [|exact F]. intros c H. unfold hex_digit in H. unfold num_char, isdigit, isalpha. lia.
  - split.
    + apply Forall_app; split; [apply D; exact A|]. constructor; [reflexivity|apply D; exact B].
    + destruct a as [|c a]; [elim N; reflexivity|]. exists c, (a ++ 46 :: b). split; [reflexivity|apply (Forall_inv A)].
Qed.

(** ** Keywords *)
Lemma keyword_some : forall kw s i j, keyword kw s i = Some j -> exists k, (j = i + k)%nat /\ nth_error kw k = Some s.
Proof.
  intros kw; induction kw as [|k kw IH]; intros s i j H; cbn [keyword] in H; [discriminate|].
  destruct (list_eq_dec N.eq_dec k s) as [E|E].
  - injection H as H; subst. exists 0%nat. split; [lia|reflexivity].
  - destruct (IH _ _ _ H) as (m & M1 & M2). exists (S m). split; [lia|exact M2].
Qed.
Lemma keyword_none : forall kw s i, keyword kw s i = None <-> ~ In s kw.
Proof.
  intros kw; induction kw as [|k kw IH]; intros s i; cbn [keyword In]; [split; auto|].
  destruct (list_eq_dec N.eq_dec k s) as [E|E].
  - split; [discriminate|]. intros H; elim H; left; exact E.
  - rewrite IH. split; intros H; [intros [G|G]; auto|auto].
Qed.
Lemma keyword_nth : forall kw, NoDup kw -> forall k s i, nth_error kw k = Some s -> keyword kw s i = Some (i + k)%nat.
Proof.
  intros kw D; induction D as [|x kw N D IH]; intros k s i H; [destruct k; discriminate|].
  cbn [keyword]. destruct (list_eq_dec N.eq_dec x s) as [E|E].
  - destruct k as [|k]; [f_equal; lia|]. cbn [nth_error] in H. subst x. elim N. eapply nth_error_In; exact H.
  - destruct k as [|k]; cbn [nth_error] in H; [injection H as H; elim E; exact H|]. rewrite (IH k s (S i) H). f_equal; lia.
Qed.

(** ** Tokens *)
Definition word_char (c : N) : bool := is_letter c || isdigit c.
Lemma word_chars : forall s, word s -> Forall (fun c => word_char c = true) s /\ exists c r, s = c :: r /\ letter c.
Proof.
  intros s [(c & r & E & L & F) _]. subst s. split.
  - constructor; [unfold word_char; rewrite (proj2 (is_letter_iff c) L); reflexivity|].
    eapply Forall_impl; [|exact F]. intros d H. unfold word_char. rewrite orb_true_iff, is_letter_iff, isdigit_iff. exact H.
  - exists c, r. auto.
Qed.
Lemma plain_head : forall c l, plain (c :: l) -> (c =? ERR) = false /\ (c =? EOF) = false.
Proof. intros c l P. pose proof (Forall_inv P) as Q; cbv beta in Q. unfold ERR, EOF. lia. Qed.
Lemma token_blanks : forall kw h b l, Forall blank b -> token_of kw h (b ++ l) = token_of kw h l.
Proof.
  intros kw h b l F; induction F as [|c b H F IH]; [reflexivity|]. cbn [app token_of]. unfold blank in H.
  replace (c =? ERR) with false by (unfold ERR; lia). replace (c =? EOF) with false by (unfold EOF; lia).
  replace ((c =? 10) || (c =? 9) || (c =? 32)) with true by lia. exact IH.
Qed.
Lemma skip_blanks : forall l, exists b r, l = b ++ r /\ Forall blank b /\ match r with [] => True | c :: _ => ~ blank c end.
Proof.
  intros l; induction l as [|c l IH].
  - exists [], []. repeat split; constructor.
  - destruct ((c =? 10) || (c =? 9) || (c =? 32)) eqn:E.
    + destruct IH as (b & r & E1 & E2 & E3). exists (c :: b), r. subst l. repeat split; auto. constructor; auto. unfold blank; lia.
    + exists [], (c :: l). repeat split; [constructor|unfold blank; lia].
Qed.
Lemma token_word : forall kw h l, plain l -> (exists c r, l = c :: r /\ letter c) ->
  exists s r, l = s ++ r /\ Forall (fun c => word_char c = true) s /\ head_not word_char r /\ (exists c u, s = c :: u /\ letter c) /\
    token_of kw h l = if list_eq_dec N.eq_dec s [95] then spec_char h 95 (left_of r) else LTok (match keyword kw s 0 with Some i => TKw i | None => TId s end) (left_of r).
Proof.
  intros kw h l P (c & r0 & E & L). destruct (scan_inv word_char l P) as (s & r & E1 & E2 & E3 & E4).
  assert (S : exists d u, s = d :: u /\ letter d).
  { destruct s as [|d u].
    - cbn [app] in E1. subst r. rewrite E in E4. cbn in E4. unfold word_char in E4. rewrite (proj2 (is_letter_iff c) L) in E4. discriminate.
    - exists d, u. split; [reflexivity|]. rewrite E in E1. cbn [app] in E1. injection E1 as E1 _. subst d. exact L. }
  exists s, r. repeat split; auto.
  rewrite E in P |- *. cbn [token_of]. destruct (plain_head c r0 P) as [P1 P2]. rewrite P1, P2.
  replace ((c =? 10) || (c =? 9) || (c =? 32)) with false by (unfold letter in L; lia). rewrite (proj2 (is_letter_iff c) L).
  rewrite <- E. change (fun c0 : N => is_letter c0 || isdigit c0) with word_char. rewrite E2.
  destruct S as (d & u & S1 & S2). subst s. destruct (list_eq_dec N.eq_dec (d :: u) [95]) as [G|G].
  - injection G as G1 G2. subst d u. reflexivity.
  - destruct (N.eq_dec d 95) as [D|D].
    + subst d. destruct u as [|y u]; [elim G; reflexivity|reflexivity].
    + destruct d as [|p]; [reflexivity|]. repeat (destruct p as [p|p|]; try reflexivity). elim D; reflexivity.
Qed.
Lemma token_num : forall kw h l, plain l -> (exists c r, l = c :: r /\ dec_digit c) ->
  exists s r, l = s ++ r /\ Forall (fun c => num_char c = true) s /\ head_not num_char r /\ (exists c u, s = c :: u /\ dec_digit c) /\
    token_of kw h l = match number s with Some t => LTok t (left_of r) | None => LErr end.
Proof.
  intros kw h l P (c & r0 & E & L). destruct (scan_inv num_char l P) as (s & r & E1 & E2 & E3 & E4).
  exists s, r. repeat split; auto.
  - destruct s as [|d u].
    + cbn [app] in E1. subst r. rewrite E in E4. cbn in E4. unfold num_char in E4. rewrite (proj2 (isdigit_iff c) L) in E4. discriminate.
    + exists d, u. split; [reflexivity|]. rewrite E in E1. cbn [app] in E1. injection E1 as E1 _. subst d. exact L.
  - rewrite E in P |- *. cbn [token_of]. destruct (plain_head c r0 P) as [P1 P2]. rewrite P1, P2. unfold dec_digit in L.
    replace ((c =? 10) || (c =? 9) || (c =? 32)) with false by lia. replace (is_letter c) with false by (unfold is_letter, isalpha; lia).
    replace (isdigit c) with true by (unfold isdigit; lia).
    rewrite <- E. change (fun c0 : N => isdigit c0 || isalpha c0 || (c0 =? 46)) with num_char. rewrite E2. reflexivity.
Qed.
Lemma token_spec : forall kw h c r, plain (c :: r) -> first_other c -> token_of kw h (c :: r) = spec_char h c (Some r).
Proof.
  intros kw h c r P (F1 & F2 & F3). cbn [token_of]. destruct (plain_head c r P) as [P1 P2]. rewrite P1, P2. unfold blank in F3.
  replace ((c =? 10) || (c =? 9) || (c =? 32)) with false by lia.
  replace (is_letter c) with false by (symmetry; apply not_true_is_false; rewrite is_letter_iff; exact F1).
  replace (isdigit c) with false by (symmetry; apply not_true_is_false; rewrite isdigit_iff; exact F2). reflexivity.
Qed.
Lemma split_unique : forall (p : N -> bool) a r a' r', Forall (fun c => p c = true) a -> head_not p r -> Forall (fun c => p c = true) a' -> head_not p r' -> a ++ r = a' ++ r' -> a = a' /\ r = r'.
Proof.
  intros p a; induction a as [|c a IH]; intros r a' r' A R A' R' E.
  - destruct a' as [|c' a']; [auto|]. cbn [app] in E. subst r. cbn in R. rewrite (Forall_inv A') in R. discriminate.
  - destruct a' as [|c' a']; cbn [app] in E.
    + subst r'. cbn in R'. rewrite (Forall_inv A) in R'. discriminate.
    + injection E as E1 E2. subst c'. destruct (IH r a' r' (Forall_inv_tail A) R (Forall_inv_tail A') R' E2) as [G1 G2]. subst. auto.
Qed.
Lemma rest_left : forall r, rest (left_of r) = r.
Proof. intros [|c r]; reflexivity. Qed.

Section Exact.
Variables (kw : list bytes) (h : hooks) (other : bytes -> token -> bytes -> Prop).
Hypothesis KW : keywords_ok kw.
Hypothesis HK : hooks_ok h other.

Lemma kw_word : forall i s, nth_error kw i = Some s -> word s.
Proof. intros i s H. apply nth_error_In in H. apply (proj1 (Forall_forall word kw) (proj1 KW) s H). Qed.
Lemma word_ends : forall r, ends (TId []) r <-> head_not word_char r.
Proof.
  intros [|c r]; cbn; [tauto|]. unfold word_char. rewrite orb_false_iff, <- !not_true_iff_false, is_letter_iff, isdigit_iff. tauto.
Qed.
Lemma num_ends : forall r, ends (TDec []) r <-> head_not num_char r.
Proof.
  intros [|c r]; cbn; [tauto|]. unfold num_char. rewrite !orb_false_iff, <- !not_true_iff_false, isalpha_iff, isdigit_iff, N.eqb_eq. tauto.
Qed.
Lemma num_token : forall t s, numeral_of t s -> (forall r, ends t r <-> ends (TDec []) r) /\ t <> TEof.
Proof. intros t s H; destruct H; split; try discriminate; intros [|d r]; cbn; tauto. Qed.

(** One token of a text. *)
Lemma token_spelled : forall b t s r, Forall blank b -> spelling kw (other r) t s -> ends t r -> plain (b ++ s ++ r) ->
  t <> TEof /\ exists l', token_of kw h (b ++ s ++ r) = LTok t l' /\ rest l' = r.
Proof.
  intros b t s r B SP EN P. rewrite token_blanks by exact B. apply Forall_app in P. destruct P as [_ P].
  assert (W : forall i, word s -> keyword kw s 0 = i -> ends (TId []) r -> token_of kw h (s ++ r) = LTok (match i with Some i => TKw i | None => TId s end) (left_of r)).
  { intros i W K E. destruct (word_chars s W) as [W1 W2]. apply word_ends in E.
    destruct (token_word kw h (s ++ r) P) as (s' & r' & E1 & E2 & E3 & E4 & E5).
    { destruct W2 as (c & u & U1 & U2). exists c, (u ++ r). subst s. auto. }
    destruct (split_unique word_char _ _ _ _ W1 E E2 E3 E1) as [G1 G2]. subst s' r'. rewrite E5.
    destruct (list_eq_dec N.eq_dec s [95]) as [X|X]; [elim (proj2 W X)|]. rewrite K. reflexivity. }
  destruct SP as [s SW NI|i s NE|t s NU|t s OT].
  - split; [discriminate|]. exists (left_of r). split; [|apply rest_left]. apply (W None SW); [apply keyword_none; exact NI|]. destruct r; exact EN.
  - split; [discriminate|]. exists (left_of r). split; [|apply rest_left]. apply (W (Some i) (kw_word i s NE)); [rewrite (keyword_nth kw (proj2 KW) i s 0 NE); reflexivity|].
    destruct r; exact EN.
  - destruct (num_token t s NU) as [NT1 NT2]. split; [exact NT2|]. exists (left_of r). split; [|apply rest_left].
    apply NT1, num_ends in EN. destruct (numeral_chars t s NU) as [C1 C2].
    destruct (token_num kw h (s ++ r) P) as (s' & r' & E1 & E2 & E3 & E4 & E5).
    { destruct C2 as (c & u & U1 & U2). exists c, (u ++ r). subst s. auto. }
    destruct (split_unique num_char _ _ _ _ C1 EN E2 E3 E1) as [G1 G2]. subst s' r'. rewrite E5, (number_spelled t s NU). reflexivity.
  - destruct HK as (H1 & H2 & H3 & H4). destruct (H1 t s r OT EN P) as (T & c & u & E & [(C & U & TT)|(F & l' & L1 & L2)]); (split; [exact T|]).
    + subst c u s t. exists (left_of r). split; [|apply rest_left].
      destruct (token_word kw h ([95] ++ r) P) as (s' & r' & E1 & E2 & E3 & E4 & E5).
      { exists 95, r. split; [reflexivity|]. unfold letter; auto. }
      assert (EN' : head_not word_char r) by (apply word_ends; destruct r; [exact I|exact (EN eq_refl)]).
      destruct (split_unique word_char [95] r s' r') as [G1 G2]; auto. subst s' r'. rewrite E5.
      destruct (list_eq_dec N.eq_dec [95] [95]) as [X|X]; [|elim X; reflexivity]. unfold spec_char. rewrite H3. reflexivity.
    + subst s. exists l'. split; [|exact L2]. cbn [app]. rewrite token_spec; auto.
Qed.
Lemma token_inv : forall l t l', plain l -> token_of kw h l = LTok t l' ->
  (t = TEof /\ l' = None /\ Forall blank l) \/
  (t <> TEof /\ exists b s r, l = b ++ s ++ r /\ Forall blank b /\ spelling kw (other r) t s /\ ends t r /\ rest l' = r).
Proof.
  intros l t l' P H. destruct (skip_blanks l) as (b & u & E & B & U). subst l. rewrite token_blanks in H by exact B.
  apply Forall_app in P. destruct P as [_ P]. destruct u as [|c u].
  - left. cbn in H. injection H as H1 H2. subst. rewrite app_nil_r. auto.
  - right. destruct HK as (H1 & H2 & H3 & H4).
    destruct (is_letter c) eqn:L; [|destruct (isdigit c) eqn:D].
    + apply is_letter_iff in L. destruct (token_word kw h (c :: u) P) as (s & r & E1 & E2 & E3 & E4 & E5); [exists c, u; auto|].
      rewrite E5 in H. destruct (list_eq_dec N.eq_dec s [95]) as [X|X].
      * unfold spec_char in H. rewrite H3 in H. cbn in H. injection H as HT HL. subst t l' s. split; [discriminate|].
        exists b, [95], r. rewrite E1. repeat split; auto; [apply sp_other; exact (H4 r)| |apply rest_left]. apply word_ends in E3. destruct r; [exact I|intros _; exact E3].
      * assert (W : word s).
        { split; [|exact X]. destruct E4 as (d & v & V1 & V2). exists d, v. repeat split; auto. subst s. apply Forall_inv_tail in E2.
          eapply Forall_impl; [|exact E2]. intros y Y. unfold word_char in Y. rewrite orb_true_iff, is_letter_iff, isdigit_iff in Y. exact Y. }
        injection H as HT HL. apply word_ends in E3. destruct (keyword kw s 0) as [i|] eqn:K.
        -- subst t l'. split; [discriminate|]. exists b, s, r. rewrite E1. repeat split; auto; [|apply rest_left].
           apply sp_kw. destruct (keyword_some _ _ _ _ K) as (k & K1 & K2). cbn in K1. subst k. exact K2.
        -- subst t l'. split; [discriminate|]. exists b, s, r. rewrite E1. repeat split; auto; [|apply rest_left].
           apply sp_word; [exact W|]. apply keyword_none in K. exact K.
    + apply isdigit_iff in D. destruct (token_num kw h (c :: u) P) as (s & r & E1 & E2 & E3 & E4 & E5); [exists c, u; auto|].
      rewrite E5 in H. destruct (number s) as [t'|] eqn:N; [|discriminate]. injection H as HT HL. subst t' l'.
      destruct E4 as (d & v & V1 & V2). subst s. pose proof (number_inv d v t V2 N) as NU. destruct (num_token _ _ NU) as [NT1 NT2].
      split; [exact NT2|]. exists b, (d :: v), r. rewrite E1. repeat split; auto; [apply sp_num; exact NU| |apply rest_left]. apply NT1, num_ends. exact E3.
    + assert (F : first_other c) by (repeat split; [rewrite <- is_letter_iff, L; discriminate|rewrite <- isdigit_iff, D; discriminate|exact U]).
      rewrite token_spec in H by auto. destruct (H2 c u t l' F P H) as (T & v & r & E1 & E2 & E3 & E4).
      split; [exact T|]. exists b, (c :: v), r. subst u. repeat split; auto. apply sp_other. exact E3.
Qed.

Lemma lex_left : forall l, lex_token kw h l = token_of kw h (rest l).
Proof. intros [l|]; reflexivity. Qed.
Lemma spells_lexes : forall ts l, spells kw other ts l -> plain l -> forall x, rest x = l -> lexes kw h x ts.
Proof.
  intros ts l S; induction S as [b B|b t s ts r B SP EN S IH]; intros P x X.
  - apply lexes_end with (l' := None). rewrite lex_left, X. rewrite <- (app_nil_r b). rewrite token_blanks by exact B. reflexivity.
  - destruct (token_spelled b t s r B SP EN P) as (T & l' & L1 & L2). apply lexes_cons with (l' := l'); auto.
    + rewrite lex_left, X. exact L1.
    + apply IH; [|exact L2]. apply Forall_app in P. destruct P as [_ P]. apply Forall_app in P. apply P.
Qed.
Lemma lexes_spells : forall x ts, lexes kw h x ts -> plain (rest x) -> spells kw other ts (rest x).
Proof.
  intros x ts L; induction L as [l l' T|l t l' ts T N L IH]; intros P; rewrite lex_left in T.
  - destruct (token_inv _ _ _ P T) as [(_ & _ & B)|(N & _)]; [|elim N; reflexivity]. constructor. exact B.
  - destruct (token_inv _ _ _ P T) as [(E & _)|(_ & b & s & r & E & B & SP & EN & R)]; [elim N; exact E|].
    rewrite E in P |- *. apply spells_cons; auto. rewrite <- R. apply IH. rewrite R.
    apply Forall_app in P. destruct P as [_ P]. apply Forall_app in P. apply P.
Qed.
End Exact.

Lemma lexes_fun : forall kw h l ts, lexes kw h l ts -> forall ts', lexes kw h l ts' -> ts = ts'.
Proof.
  intros kw h l ts L; induction L as [l l' T|l t l' ts T N L IH]; intros ts' L'; destruct L' as [m m' T'|m t' m' ts2 T' N' L'].
  - reflexivity.
  - rewrite T in T'. injection T' as E1 E2. congruence.
  - rewrite T in T'. injection T' as E1 E2. congruence.
  - rewrite T in T'. injection T' as E1 E2. subst. f_equal. apply IH. exact L'.
Qed.
