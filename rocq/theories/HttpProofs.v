(** Proofs about the HTTP model. *)
Require Import List Arith NArith ZArith Lia Bool.
Require Import ZifyBool ZifyNat ZifyN.
Require Import Verif.Base Verif.HttpModel Verif.HttpSpec.
Import ListNotations.
Open Scope N_scope.

(** ** Bytes *)
Lemma blank_is c : blank c = true <-> is_blank c.
Proof. unfold blank, is_blank. lia. Qed.
Lemma blank_not c : blank c = false <-> ~ is_blank c.
Proof. unfold blank, is_blank. lia. Qed.
Lemma lower_spec a b : (b = 0 \/ 1 <= b) -> lower a = lower b <-> same_letter a b.
Proof. intros _. unfold lower, same_letter. destruct ((65 <=? a) && (a <=? 90)) eqn:A; destruct ((65 <=? b) && (b <=? 90)) eqn:B; lia. Qed.
Lemma casecmp_spelled w r : ~ In 0 r -> casecmp w r = true <-> spelled w r.
Proof.
  unfold casecmp, spelled. revert w; induction r as [|y r IH]; intros [|x w] Z.
  - split; [constructor|reflexivity].
  - cbn. split; [discriminate|intros H; inversion H].
  - cbn. split; [discriminate|intros H; inversion H].
  - cbn [length Nat.eqb ncasecmp].
    assert (NZ : lower y =? 0 = false).
    { unfold lower. destruct ((65 <=? y) && (y <=? 90)) eqn:E; [lia|]. destruct (N.eqb_spec y 0); [|reflexivity]. subst. cbn in Z. tauto. }
    specialize (IH w). rewrite !andb_true_iff in *. rewrite orb_true_iff, N.eqb_eq.
    split.
    + intros (L & E & X). rewrite E, NZ in X. destruct X as [X|X]; [discriminate|].
      constructor; [apply lower_spec; [lia|auto]|]. apply IH; [cbn in Z; tauto|auto].
    + intros H; inversion H; subst. apply lower_spec in H3; [|lia].
      apply IH in H5 as [? ?]; [|cbn in Z; tauto]. auto.
Qed.
Lemma lookup_row rows w i k : (forall r, In r rows -> ~ In 0 r) -> lookup rows w i = Some k -> i <= k /\ row rows (k - i) w.
Proof.
  revert i; induction rows as [|r rows IH]; cbn [lookup]; intros i Z H; [discriminate|].
  destruct (casecmp w r) eqn:C.
  - inversion H; subst. split; [lia|]. rewrite N.sub_diag. exists r. split; [reflexivity|]. apply casecmp_spelled; [apply Z; left; auto|auto].
  - apply IH in H as (L & r' & N' & S'); [|intros; apply Z; right; auto]. split; [lia|]. exists r'. split; auto.
    replace (N.to_nat (k - i)) with (S (N.to_nat (k - (i + 1)))) by lia. exact N'.
Qed.
Lemma lookup_none rows w i : (forall r, In r rows -> ~ In 0 r) -> lookup rows w i = None -> forall k, ~ row rows k w.
Proof.
  intros Z H k (r & N' & S'). revert i k Z H N'; induction rows as [|a rows IH]; intros i k Z H N'; [destruct (N.to_nat k); discriminate|].
  cbn [lookup] in H. destruct (casecmp w a) eqn:C; [discriminate|].
  destruct (N.to_nat k) as [|j] eqn:K; cbn in N'.
  - inversion N'; subst. apply casecmp_spelled in S'; [congruence|apply Z; left; auto].
  - apply (IH (i + 1) (N.of_nat j)); auto; [intros; apply Z; right; auto|]. rewrite Nat2N.id. exact N'.
Qed.
Lemma spelled_sym_trans w r r' : spelled w r -> spelled w r' -> ~ In 0 r -> ~ In 0 r' -> map lower r = map lower r'.
Proof.
  unfold spelled. revert r r'; induction w as [|c w IH]; intros r r' A B Z Z'; inversion A; inversion B; subst; [reflexivity|].
  cbn. f_equal; [|apply IH; cbn in *; tauto].
  apply lower_spec in H1; [|lia]. apply lower_spec in H6; [|lia]. congruence.
Qed.
Lemma spelled_lower w r : spelled w r -> map lower w = map lower r.
Proof. induction 1; [reflexivity|]. cbn. f_equal; auto. apply lower_spec; [lia|auto]. Qed.
Lemma no_zero_methods r : In r http_method -> ~ In 0 r.
Proof. intros H Z. cbn in H. repeat destruct H as [<-|H]; [..|auto]; cbn in Z; repeat destruct Z as [Z|Z]; try discriminate; auto. Qed.
Lemma no_zero_versions r : In r http_version -> ~ In 0 r.
Proof. intros H Z. cbn in H. repeat destruct H as [<-|H]; [..|auto]; cbn in Z; repeat destruct Z as [Z|Z]; try discriminate; auto. Qed.
Lemma row_unique rows i j w : (forall r, In r rows -> ~ In 0 r) -> NoDup (map (map lower) rows) -> row rows i w -> row rows j w -> i = j.
Proof.
  intros Z D (r & A & SA) (r' & B & SB).
  enough (N.to_nat i = N.to_nat j) by lia.
  pose proof (proj1 (NoDup_nth_error _) D) as U. apply U.
  - rewrite map_length. apply (proj1 (nth_error_Some rows (N.to_nat i))). intros X. pose proof (eq_trans (eq_sym A) X). discriminate.
  - rewrite (map_nth_error _ _ _ A), (map_nth_error _ _ _ B). f_equal. rewrite <- (spelled_lower _ _ SA). apply spelled_lower; auto.
Qed.
Lemma distinct_methods : NoDup (map (map lower) http_method).
Proof. cbv. repeat constructor; cbn; intros H; repeat destruct H as [H|H]; try discriminate; auto. Qed.
Lemma distinct_versions : NoDup (map (map lower) http_version).
Proof. cbv. repeat constructor; cbn; intros H; repeat destruct H as [H|H]; try discriminate; auto. Qed.
Lemma lookup_is rows w i : (forall r, In r rows -> ~ In 0 r) -> NoDup (map (map lower) rows) -> lookup rows w 0 = Some i <-> row rows i w.
Proof.
  intros Z D. split.
  - intros H. apply lookup_row in H as [_ H]; auto. now rewrite N.sub_0_r in H.
  - intros H. destruct (lookup rows w 0) as [k|] eqn:E.
    + apply lookup_row in E as [_ E]; auto. rewrite N.sub_0_r in E. f_equal. eapply row_unique; eauto.
    + destruct (lookup_none _ _ _ Z E _ H).
Qed.
Definition method_is := fun w i => lookup_is http_method w i no_zero_methods distinct_methods.
Definition version_is := fun w i => lookup_is http_version w i no_zero_versions distinct_versions.
(** A word is not both a version and a method. *)
Lemma method_not_version w m v : row http_method m w -> ~ row http_version v w.
Proof.
  intros (r & A & SA) (r' & B & SB). apply spelled_lower in SA, SB. rewrite SA in SB.
  apply nth_error_In in A, B. cbn in A, B. repeat destruct A as [<-|A]; repeat destruct B as [<-|B]; try discriminate; auto.
Qed.

(** ** Blanks and words *)
Lemma skip_blanks b l : blanks b -> skip (b ++ l) = skip l.
Proof. induction 1 as [|c b C B IH]; [reflexivity|]. cbn. apply blank_is in C. rewrite C. exact IH. Qed.
Lemma skip_dark l : starts_dark l -> skip l = l.
Proof. intros (c & r & -> & C). cbn. apply blank_not in C. now rewrite C. Qed.
Lemma skip_split l : exists b, l = b ++ skip l /\ blanks b /\ (skip l = [] \/ starts_dark (skip l)).
Proof.
  induction l as [|c r IH]; [exists []; repeat split; [constructor|auto]|]. cbn [skip]. destruct (blank c) eqn:C.
  - destruct IH as (b & E & B & X). exists (c :: b). repeat split; auto; [cbn; congruence|constructor; auto; apply blank_is; auto].
  - exists []. repeat split; [constructor|]. right. exists c, r. split; auto. now apply blank_not.
Qed.
Lemma skip_nil l : skip l = [] <-> blanks l.
Proof.
  split.
  - intros H. destruct (skip_split l) as (b & E & B & _). rewrite H, app_nil_r in E. now subst.
  - intros B. rewrite <- (app_nil_r l), skip_blanks; auto.
Qed.
Lemma word_split stop l w r : word stop l = (w, r) -> l = w ++ r /\ Forall (fun c => stop c = false) w /\ (r = [] \/ exists c r', r = c :: r' /\ stop c = true).
Proof.
  revert w r; induction l as [|c l IH]; cbn; intros w r H; [inversion H; subst; auto|].
  destruct (stop c) eqn:S1.
  - inversion H; subst. split; [reflexivity|split; [constructor|right; eauto]].
  - destruct (word stop l) as [a b]. inversion H; subst. destruct (IH _ _ eq_refl) as (-> & F & X). repeat split; auto.
Qed.
Lemma word_app stop w r : Forall (fun c => stop c = false) w -> (r = [] \/ exists c r', r = c :: r' /\ stop c = true) -> word stop (w ++ r) = (w, r).
Proof.
  induction 1 as [|c w C F IH]; intros X; cbn.
  - destruct X as [->|(c & r' & -> & S1)]; cbn; [reflexivity|now rewrite S1].
  - rewrite C, (IH X). reflexivity.
Qed.
Lemma dark_blank w : Forall (fun c => blank c = false) w <-> Forall (fun c => ~ is_blank c) w.
Proof. split; intros F; eapply Forall_impl; try exact F; intros c; apply blank_not. Qed.
Lemma blanks_stop b r : blanks b -> b <> [] -> exists c r', b ++ r = c :: r' /\ blank c = true.
Proof. intros B N'. destruct b as [|c b]; [congruence|]. inversion B; subst. exists c, (b ++ r). split; auto. now apply blank_is. Qed.

(** ** Lines *)
Lemma drop_nulls_zeros n l : l <> [] -> drop_nulls (repeat 0 n ++ l) = drop_nulls l.
Proof.
  intros H. induction n as [|n IH]; [reflexivity|]. cbn [repeat app drop_nulls].
  destruct (repeat 0 n ++ l) as [|a r] eqn:E; [apply app_eq_nil in E as [_ E]; congruence|]. rewrite <- IH. reflexivity.
Qed.
Lemma drop_nulls_stop c l : l = [] \/ c <> 0 -> drop_nulls (c :: l) = c :: l.
Proof. intros H. cbn. destruct H as [->|H]; [now rewrite andb_false_r|]. apply N.eqb_neq in H. now rewrite H. Qed.
Lemma drop_nulls_split r : exists n, r = repeat 0 n ++ drop_nulls r /\ (drop_nulls r = [] -> r = []) /\
  (forall c q, drop_nulls r = c :: q -> q = [] \/ c <> 0).
Proof.
  induction r as [|c r IH]; [exists O; repeat split; discriminate|]. cbn [drop_nulls].
  destruct ((c =? 0) && negb match r with [] => true | _ => false end) eqn:E.
  - destruct IH as (n & E1 & E2 & E3). exists (S n). split; [|split].
    + cbn. f_equal; [lia|]. auto.
    + intros H. apply E2 in H. subst. lia.
    + auto.
  - exists O. split; [reflexivity|split; [discriminate|]]. intros c' q H. inversion H; subst. destruct q; [auto|right; lia].
Qed.
Lemma repeat_comm {A} (x : A) n l : rev (l ++ repeat x n) = repeat x n ++ rev l.
Proof.
  rewrite rev_app_distr. f_equal. induction n as [|n IH]; [reflexivity|]. cbn [repeat rev]. rewrite IH.
  clear. induction n as [|n IH]; [reflexivity|]. cbn. now rewrite IH.
Qed.
Lemma rev_repeat {A} (x : A) n : rev (repeat x n) = repeat x n.
Proof. generalize (repeat_comm x n []). cbn. now rewrite app_nil_r. Qed.

(** What a line does to the message, from its text. *)
Definition line_step (h : http) (l : bytes) : N * http :=
  if type h =? UNKNOWN then parse_headline h l else parse_field h l.
Lemma line_step_blanks h l : blanks l -> line_step h l = (RET_OK, set_done h true).
Proof. intros B. apply skip_nil in B. unfold line_step, parse_headline, parse_field. rewrite B. now destruct (type h =? UNKNOWN). Qed.
Lemma process_bytes_line h raw l : line_of raw l -> process_bytes h raw = line_step h l.
Proof.
  intros H. inversion H; subst; unfold process_bytes.
  - rewrite repeat_comm. destruct l as [|c0 l0].
    + rewrite H0 by auto. cbn. now rewrite line_step_blanks by constructor.
    + destruct (@exists_last _ (c0 :: l0)) as (q & c & E); [discriminate|]. rewrite E in *. rewrite rev_app_distr. cbn [rev app].
      assert (C13 : c =? CR = false). { apply N.eqb_neq. intros ->. apply H2. now exists q. }
      rewrite drop_nulls_zeros by discriminate. rewrite drop_nulls_stop.
      2:{ destruct q as [|c1 q]; [auto|right]. intros ->. apply H1; [rewrite app_length; cbn; lia|]. now exists (c1 :: q). }
      rewrite C13, andb_false_r. cbn [rev]. rewrite rev_involutive. reflexivity.
  - rewrite app_assoc, repeat_comm, rev_app_distr. cbn [rev app]. rewrite drop_nulls_zeros by discriminate.
    rewrite drop_nulls_stop by (right; discriminate). rewrite N.eqb_refl. destruct l as [|c l]; [cbn; now rewrite line_step_blanks by constructor|].
    destruct (rev (c :: l)) as [|a q] eqn:E; [apply (f_equal (@rev N)) in E; rewrite rev_involutive in E; discriminate|].
    cbn [andb]. rewrite <- E, rev_involutive. reflexivity.
Qed.
Lemma line_of_exists raw : exists l, line_of raw l.
Proof.
  destruct (drop_nulls_split (rev raw)) as (n & E & E1 & E2).
  apply (f_equal (@rev N)) in E. rewrite rev_involutive, rev_app_distr, rev_repeat in E.
  destruct (drop_nulls (rev raw)) as [|c q] eqn:D.
  - specialize (E1 eq_refl). apply (f_equal (@rev N)) in E1. rewrite rev_involutive in E1. cbn in E1. clear E. subst raw. exists [].
    apply (Line_plain [] O); auto; [cbn; lia|]. intros (r & R). destruct r; discriminate.
  - cbn [rev] in E. destruct (N.eq_dec c 13) as [->|C].
    + exists (rev q). rewrite E, <- app_assoc. constructor.
    + exists (rev q ++ [c]). rewrite E. apply Line_plain.
      * intros X. destruct (rev q); discriminate.
      * rewrite app_length, rev_length. cbn [length]. intros L (r & R). apply app_inj_tail in R as [_ ->].
        destruct (E2 _ _ eq_refl) as [->|]; [cbn in L; lia|congruence].
      * intros (r & R). apply app_inj_tail in R as [_ R]. congruence.
Qed.

(** ** Header fields *)
Lemma name_stop k : Forall (fun c => blank c || (c =? 58) = false) k <-> Forall name_byte k.
Proof. split; intros F; eapply Forall_impl; try exact F; intros c; unfold name_byte, blank, is_blank; lia. Qed.
Lemma dark_cons k : k <> [] -> Forall (fun c => ~ is_blank c) k -> forall r, starts_dark (k ++ r).
Proof. intros N' F r. destruct k as [|c k]; [congruence|]. inversion F; subst. exists c, (k ++ r). auto. Qed.
Lemma parse_field_ok h l k v : field_line l k v -> parse_field h l = (RET_OK, add_field h k v).
Proof.
  intros (b0 & b1 & t & -> & B0 & B1 & K & F & V). unfold parse_field.
  assert (FD : Forall (fun c => ~ is_blank c) k). { eapply Forall_impl; [|exact F]. intros c []; auto. }
  rewrite skip_blanks by auto. rewrite skip_dark by (apply dark_cons; auto).
  destruct (k ++ b1 ++ t) as [|c0 r0] eqn:E0; [destruct k; [congruence|discriminate]|]. rewrite <- E0.
  assert (W : word (fun c => blank c || (c =? 58)) (k ++ b1 ++ t) = (k, b1 ++ t)).
  { apply word_app; [now apply name_stop|]. destruct b1 as [|c b1].
    - destruct v as [v|]; [destruct V as (b2 & -> & _)|destruct V as [->|(b2 & -> & _)]]; [right|left; reflexivity|right]; cbn; eauto.
    - right. inversion B1; subst. exists c, (b1 ++ t). split; auto. apply blank_is in H1. now rewrite H1. }
  rewrite W. destruct k as [|k0 k]; [congruence|]. rewrite skip_blanks by auto.
  destruct v as [v|].
  - destruct V as (b2 & -> & B2 & D). rewrite skip_dark by (exists 58, (b2 ++ v); split; auto; unfold is_blank; lia).
    rewrite N.eqb_refl, skip_blanks, skip_dark by auto. destruct D as (c & r & -> & _). reflexivity.
  - destruct V as [->|(b2 & -> & B2)]; [reflexivity|].
    rewrite skip_dark by (exists 58, b2; split; auto; unfold is_blank; lia). rewrite N.eqb_refl.
    apply skip_nil in B2. now rewrite B2.
Qed.
Lemma parse_field_inv h l r h' : parse_field h l = (r, h') ->
  blanks l /\ r = RET_OK /\ h' = set_done h true \/
  (exists k v, field_line l k v /\ r = RET_OK /\ h' = add_field h k v) \/
  r = RET_ERROR /\ exists e, (e = 400 \/ e = 600) /\ h' = set_error h e.
Proof.
  unfold parse_field. destruct (skip_split l) as (b0 & E & B0 & X). destruct (skip l) as [|c0 l0] eqn:S0.
  - intros H; inversion H; subst. left. split; auto. now apply skip_nil.
  - destruct X as [X|D]; [discriminate|]. destruct (word _ (c0 :: l0)) as [k l1] eqn:W. apply word_split in W as (E1 & F & X1).
    assert (M : malformed h = (r, h') -> r = RET_ERROR /\ exists e, (e = 400 \/ e = 600) /\ h' = set_error h e).
    { unfold malformed. intros H. destruct (type h =? REQUEST); injection H as <- <-; split; auto; eexists; split; try reflexivity; auto. }
    destruct k as [|k0 k1]; [intros H; right; right; auto|]. set (k := k0 :: k1) in *.
    apply name_stop in F. destruct (skip_split l1) as (b1 & E2 & B1 & X2). destruct (skip l1) as [|c1 l2] eqn:S1.
    + intros H; injection H as <- <-. right; left. exists k, None. split; [|auto]. exists b0, b1, []. rewrite E, E1, E2.
      repeat split; auto. discriminate.
    + destruct (N.eqb_spec c1 58) as [->|NC]; [|intros H; right; right; auto].
      destruct (skip_split l2) as (b2 & E3 & B2 & X3). destruct (skip l2) as [|c2 v] eqn:S2; intros H; injection H as <- <-; right; left.
      * exists k, None. split; [|auto]. exists b0, b1, (58 :: l2). rewrite E, E1, E2. repeat split; auto; [discriminate|].
        right. exists l2. split; auto. now apply skip_nil.
      * destruct X3 as [X3|D2]; [discriminate|].
        exists k, (Some (c2 :: v)). split; [|auto]. exists b0, b1, (58 :: l2). rewrite E, E1, E2. repeat split; auto; [discriminate|].
        exists b2. rewrite E3. auto.
Qed.

(** ** The first line *)
Lemma atou_digits l s : s < 2 ^ 32 -> match atou l s with
  | Some n => digits l /\ n = fold_left (fun n c => 10 * n + (c - 48)) l s mod 2 ^ 32
  | None => ~ digits l
  end.
Proof.
  revert s; induction l as [|c l IH]; intros s S1; cbn [atou fold_left].
  - split; [constructor|]. rewrite N.mod_small; auto.
  - destruct ((48 <=? c) && (c <=? 57)) eqn:C.
    + assert (L : (s * 10 + (c - 48)) mod 2 ^ 32 < 2 ^ 32) by (apply N.mod_lt; discriminate).
      specialize (IH _ L). destruct (atou l _) as [n|].
      * destruct IH as [D ->]. split; [constructor; auto; lia|]. clear.
        enough (G : forall l a b, a mod 2 ^ 32 = b mod 2 ^ 32 -> fold_left (fun n c => 10 * n + (c - 48)) l a mod 2 ^ 32 = fold_left (fun n c => 10 * n + (c - 48)) l b mod 2 ^ 32).
        { apply G. rewrite N.mod_mod by discriminate. f_equal. lia. }
        clear. induction l as [|c l IH]; intros a b E; [exact E|]. cbn [fold_left]. apply IH.
        rewrite (N.add_mod (10 * a)), (N.add_mod (10 * b)), (N.mul_mod 10 a), (N.mul_mod 10 b), E by discriminate. reflexivity.
      * intros D. inversion D; subst. auto.
    + intros D. inversion D; subst. lia.
Qed.
(** What reading a first line leaves alone. *)
Definition kept (h h' : http) : Prop := fields h' = fields h /\ body h' = body h /\ data h' = data h /\ error h' = error h /\ done h' = done h.
Lemma spelled_dark w r : spelled w r -> r <> [] -> Forall (fun c => 46 <= c <= 90) r -> starts_dark w /\ Forall (fun c => ~ is_blank c) w /\ w <> [].
Proof.
  intros S1 N' F.
  assert (A : Forall (fun c => ~ is_blank c) w).
  { clear N'. induction S1 as [|a b w r E S1 IH]; [constructor|]. inversion F; subst. constructor; [|auto].
    unfold same_letter in E. unfold is_blank. lia. }
  destruct S1 as [|a b w r E S1]; [congruence|]. repeat split; auto; [|discriminate]. exists a, w. inversion A; auto.
Qed.
Lemma row_dark rows i w : rows = http_version \/ rows = http_method -> row rows i w -> starts_dark w /\ Forall (fun c => ~ is_blank c) w /\ w <> [].
Proof.
  intros R (r & E & S1). apply nth_error_In in E. apply (spelled_dark w r S1).
  - destruct R as [->| ->]; cbn in E; repeat destruct E as [<-|E]; try discriminate; destruct E.
  - destruct R as [->| ->]; cbn in E; repeat destruct E as [<-|E]; try (destruct E); cbn; repeat constructor; discriminate.
Qed.
Lemma third_request h b2 e v : type h = REQUEST -> blanks b2 -> (e = [] /\ v = 0 \/ b2 <> [] /\ row http_version v e) ->
  headline_third h (b2 ++ e) = (RET_OK, set_version h v).
Proof.
  intros T B X. unfold headline_third. rewrite skip_blanks by auto. destruct X as [[-> ->]|[_ R]].
  - cbn. now rewrite T.
  - pose proof (row_dark _ _ _ (or_introl eq_refl) R) as (D & _ & _). rewrite skip_dark by auto. destruct e as [|c e]; [destruct D as (? & ? & ? & _); discriminate|].
    rewrite T. cbn [N.eqb REQUEST Pos.eqb]. apply version_is in R. now rewrite R.
Qed.
Lemma third_response h b2 e msg : type h = RESPONSE -> blanks b2 ->
  match msg with None => e = [] | Some msg => e = msg /\ b2 <> [] /\ starts_dark msg end -> headline_third h (b2 ++ e) = (RET_OK, set_msg h msg).
Proof.
  intros T B X. unfold headline_third. rewrite skip_blanks by auto. destruct msg as [msg|].
  - destruct X as (-> & _ & D). rewrite skip_dark by auto. destruct D as (c & r & -> & _). now rewrite T.
  - subst. cbn. now rewrite T.
Qed.
Lemma target_set h t u a : target t u a -> set_target h t = set_uri h (Some u) a.
Proof.
  intros (N' & F & Q & X). unfold set_target.
  assert (FU : Forall (fun c => (c =? 63) = false) u).
  { apply Forall_forall. intros c I. apply N.eqb_neq. intros ->. auto. }
  destruct a as [a|].
  - destruct X as [NA ->]. rewrite word_app; [|auto|right; exists 63, a; auto]. cbn [app]. destruct a; [congruence|reflexivity].
  - destruct X as [->| ->].
    + rewrite <- (app_nil_r u) at 1. rewrite word_app; auto.
    + rewrite word_app; [reflexivity|auto|right; exists 63, []; auto].
Qed.
Lemma target_of h t : t <> [] -> Forall (fun c => ~ is_blank c) t -> exists u a, target t u a /\ set_target h t = set_uri h (Some u) a.
Proof.
  intros N' F. unfold set_target. destruct (word (fun c => c =? 63) t) as [u r] eqn:W. apply word_split in W as (E & FU & X).
  assert (Q : ~ In 63 u). { intros I. rewrite Forall_forall in FU. specialize (FU _ I). discriminate. }
  destruct r as [|c r].
  - exists u, None. split; [|reflexivity]. rewrite app_nil_r in E. repeat split; auto.
  - assert (c = 63) as -> by (destruct X as [X|(c' & r' & X & Y)]; [discriminate|]; inversion X; subst; lia).
    destruct r as [|c1 r]; [exists u, None|exists u, (Some (c1 :: r))]; (split; [|reflexivity]); (split; [auto|split; [auto|split; [auto|]]]); [auto|split; [discriminate|exact E]].
Qed.
Definition holds_head (h h' : http) (x : head) : Prop := head_of h' = Some x /\ type h' <> UNKNOWN /\ kept h h'.
Lemma headline_ok h l x : first_line l x -> exists h', parse_headline h l = (RET_OK, h') /\ holds_head h h' x.
Proof.
  intros (b0 & w & b1 & t & b2 & e & -> & B0 & B1 & N1 & B2 & X). unfold parse_headline.
  assert (ROW : (exists m, row http_method m w) \/ (exists v, row http_version v w)).
  { destruct x as [m u a v|v s msg]; [left|right]; destruct X as (R & _); eauto. }
  assert (D : starts_dark w /\ Forall (fun c => ~ is_blank c) w /\ w <> []).
  { destruct ROW as [(i & R)|(i & R)]; [exact (row_dark _ _ _ (or_intror eq_refl) R)|exact (row_dark _ _ _ (or_introl eq_refl) R)]. }
  destruct D as (_ & FW & NW).
  rewrite skip_blanks by auto. rewrite skip_dark by (apply dark_cons; auto).
  destruct (w ++ b1 ++ t ++ b2 ++ e) as [|c0 r0] eqn:E0; [destruct w; [congruence|discriminate]|]. rewrite <- E0. clear E0 c0 r0.
  rewrite word_app; [|now apply dark_blank|right; now apply blanks_stop].
  assert (SEC : forall h0, t <> [] -> Forall (fun c => ~ is_blank c) t -> (e = [] \/ b2 <> []) ->
    headline_second h0 (b1 ++ t ++ b2 ++ e) = if type h0 =? REQUEST then headline_third (set_target h0 t) (b2 ++ e)
      else match atou t 0 with Some s => headline_third (set_status h0 s) (b2 ++ e) | None => (RET_ERROR, set_error h0 600) end).
  { intros h0 NT FT XE. unfold headline_second. rewrite skip_blanks by auto. rewrite skip_dark by (apply dark_cons; auto).
    destruct (t ++ b2 ++ e) as [|c0 r0] eqn:E0; [destruct t; [congruence|discriminate]|]. rewrite <- E0. clear E0 c0 r0.
    rewrite word_app; [reflexivity|now apply dark_blank|]. destruct b2 as [|c b2].
    - destruct XE as [->|XE]; [left; reflexivity|congruence].
    - right. apply blanks_stop; [auto|discriminate]. }
  destruct x as [m u a v|v s msg].
  - destruct X as (R & T & XV).
    destruct (lookup http_version w 0) as [k|] eqn:LV; [apply version_is in LV; destruct (method_not_version _ _ _ R LV)|].
    pose proof R as R'. apply method_is in R'. rewrite R'. clear R'.
    pose proof T as (NT & FT & _). rewrite SEC; auto; [|destruct XV as [[? _]|[? _]]; auto].
    cbn [set_method set_type type N.eqb REQUEST Pos.eqb]. rewrite (target_set _ _ _ _ T).
    rewrite (third_request _ b2 e v) by auto. eexists. split; [reflexivity|]. repeat split. discriminate.
  - destruct X as (R & NT & DT & S1 & XE). pose proof R as R'. apply version_is in R'. rewrite R'. clear R'.
    rewrite SEC; [|auto| |].
    2:{ eapply Forall_impl; [|exact DT]. unfold is_blank. cbn. intros; lia. }
    2:{ destruct msg; [right|left]; tauto. }
    cbn [set_version set_type type N.eqb REQUEST RESPONSE Pos.eqb].
    pose proof (atou_digits t 0 eq_refl) as A. destruct (atou t 0) as [n|]; [|contradiction]. destruct A as [_ A].
    rewrite (third_response _ b2 e msg) by auto. eexists. split; [reflexivity|]. unfold number in S1. rewrite <- A in S1. subst. repeat split. discriminate.
Qed.
Definition complained (h h' : http) : Prop := (error h' = 400 \/ error h' = 600) /\ done h' = done h /\ fields h' = fields h.
Lemma headline_inv h l r h' : parse_headline h l = (r, h') ->
  blanks l /\ r = RET_OK /\ h' = set_done h true \/
  (exists x, first_line l x /\ r = RET_OK /\ holds_head h h' x) \/
  r = RET_ERROR /\ complained h h'.
Proof.
  unfold parse_headline. destruct (skip_split l) as (b0 & E & B0 & X). destruct (skip l) as [|c0 l0] eqn:S0.
  - intros H; inversion H; subst. left. split; auto. now apply skip_nil.
  - destruct (word blank (c0 :: l0)) as [w l1] eqn:W. apply word_split in W as (E1 & FW & X1).
    assert (SEC : forall h0 r h', headline_second h0 l1 = (r, h') ->
      r = RET_ERROR /\ complained h0 h' \/
      exists b1 t l2, l1 = b1 ++ t ++ l2 /\ blanks b1 /\ b1 <> [] /\ t <> [] /\ Forall (fun c => ~ is_blank c) t /\ (l2 = [] \/ exists c q, l2 = c :: q /\ blank c = true) /\
        (if type h0 =? REQUEST then headline_third (set_target h0 t) l2 = (r, h')
         else exists s, atou t 0 = Some s /\ headline_third (set_status h0 s) l2 = (r, h'))).
    { intros h0 r0 h0'. unfold headline_second. destruct (skip_split l1) as (b1 & E2 & B1 & X2). destruct (skip l1) as [|c1 l2] eqn:S1.
      - intros H; injection H as <- <-. left. split; auto. split; [|auto]. cbn. destruct (type h0 =? REQUEST); auto.
      - destruct X2 as [X2|D2]; [discriminate|].
        assert (b1 <> []).
        { intros ->. cbn in E2. destruct X1 as [->|(c & q & -> & BC)]; [discriminate|]. inversion E2; subst.
          destruct D2 as (c' & q' & D2 & DB). inversion D2; subst. apply blank_is in BC. auto. }
        destruct (word blank (c1 :: l2)) as [t l3] eqn:W2. apply word_split in W2 as (E3 & FT & X3).
        assert (NT : t <> []).
        { intros ->. cbn in E3. destruct X3 as [->|(c & q & -> & BC)]; [discriminate|]. inversion E3; subst.
          destruct D2 as (c' & q' & D2 & DB). inversion D2; subst. apply blank_is in BC. auto. }
        intros H'. assert (FT' : Forall (fun c => ~ is_blank c) t) by (now apply dark_blank).
        destruct (type h0 =? REQUEST) eqn:TY.
        + right. exists b1, t, l3. rewrite E2, E3. repeat split; auto.
        + destruct (atou t 0) as [s|] eqn:A.
          * right. exists b1, t, l3. rewrite E2, E3. repeat split; auto. eauto.
          * injection H' as <- <-. left. repeat split; auto. }
    destruct X as [X|D]; [discriminate|].
    assert (NW : w <> []).
    { intros ->. cbn in E1. destruct X1 as [->|(c & q & -> & BC)]; [discriminate|]. inversion E1; subst.
      destruct D as (c' & q' & D & DB). inversion D; subst. apply blank_is in BC. auto. }
    destruct (lookup http_version w 0) as [v|] eqn:LV; [|destruct (lookup http_method w 0) as [m|] eqn:LM].
    + intros H. right. apply SEC in H as [[-> C]|(b1 & t & l2 & E2 & B1 & N1 & NT & FT & X2 & T)]; [right; split; auto|left].
      cbn [set_version set_type type N.eqb REQUEST RESPONSE Pos.eqb] in T. destruct T as (s & A & T).
      pose proof (atou_digits t 0 eq_refl) as AD. rewrite A in AD. destruct AD as [DT AD]. apply version_is in LV.
      unfold headline_third in T. destruct (skip_split l2) as (b2 & E3 & B2 & X3). destruct (skip l2) as [|c2 e] eqn:S2.
      * cbn [set_status set_version set_type type N.eqb REQUEST RESPONSE Pos.eqb] in T. injection T as <- <-.
        exists (Resp v s None). split; [|split; [reflexivity|repeat split; discriminate]].
        exists b0, w, b1, t, b2, []. rewrite E, E1, E2, E3. repeat split; auto.
      * cbn [set_status set_version set_type type N.eqb REQUEST RESPONSE Pos.eqb] in T. injection T as <- <-.
        exists (Resp v s (Some (c2 :: e))). split; [|split; [reflexivity|repeat split; discriminate]].
        destruct X3 as [X3|D3]; [discriminate|].
        exists b0, w, b1, t, b2, (c2 :: e). rewrite E, E1, E2, E3. repeat split; auto.
        intros ->. cbn in E3. destruct X2 as [->|(c & q & -> & BC)]; [discriminate|]. inversion E3; subst.
        destruct D3 as (c' & q' & D3 & DB). inversion D3; subst. apply blank_is in BC. auto.
    + intros H. right. apply SEC in H as [[-> C]|(b1 & t & l2 & E2 & B1 & N1 & NT & FT & X2 & T)]; [right; split; auto|].
      change (type (set_method (set_type h REQUEST) m) =? REQUEST) with true in T. cbv iota in T. apply method_is in LM.
      destruct (target_of (set_method (set_type h REQUEST) m) t NT FT) as (u & a & TG & ST). rewrite ST in T.
      unfold headline_third in T. destruct (skip_split l2) as (b2 & E3 & B2 & X3). destruct (skip l2) as [|c2 e] eqn:S2.
      * cbn [set_uri set_method set_type type N.eqb REQUEST RESPONSE Pos.eqb] in T. injection T as <- <-. left.
        exists (Req m u a 0). split; [|split; [reflexivity|repeat split; discriminate]].
        exists b0, w, b1, t, b2, []. rewrite E, E1, E2, E3. repeat split; auto; destruct TG as (?&?&?&?); auto.
      * cbn [set_uri set_method set_type type N.eqb REQUEST RESPONSE Pos.eqb] in T.
        destruct (lookup http_version (c2 :: e) 0) as [v|] eqn:LE; injection T as <- <-; [left|right; repeat split; auto].
        exists (Req m u a v). split; [|split; [reflexivity|repeat split; discriminate]].
        destruct X3 as [X3|D3]; [discriminate|]. apply version_is in LE.
        assert (b2 <> []).
        { intros ->. cbn in E3. destruct X2 as [->|(c & q & -> & BC)]; [discriminate|]. inversion E3; subst.
          destruct D3 as (c' & q' & D3 & DB). inversion D3; subst. apply blank_is in BC. auto. }
        exists b0, w, b1, t, b2, (c2 :: e). rewrite E, E1, E2, E3. repeat split; auto; destruct TG as (?&?&?&?); auto.
    + intros H; injection H as <- <-. right; right. repeat split; auto.
Qed.

(** ** Chains *)
Lemma content_app c c' : content (c ++ c') = content c ++ content c'.
Proof. induction c as [|b c IH]; [reflexivity|]. destruct b; cbn; auto. now rewrite IH, app_assoc. Qed.
Lemma size_content c : size c = length (content c).
Proof. induction c as [|b c IH]; [reflexivity|]. destruct b; cbn; auto. rewrite app_length. lia. Qed.
Lemma buf_line_some a b raw rest : buf_line a = (raw, Some rest) -> buf_line (a ++ b) = (raw, Some (rest ++ b)).
Proof.
  revert raw; induction a as [|c a IH]; intros raw; cbn; [discriminate|]. destruct (c =? LF); [intros H; inversion H; auto|].
  destruct (buf_line a) as [x y]. intros H; inversion H; subst. now rewrite (IH _ eq_refl).
Qed.
Lemma buf_line_none a b raw : buf_line a = (raw, None) -> raw = a /\ buf_line (a ++ b) = (a ++ fst (buf_line b), snd (buf_line b)).
Proof.
  revert raw; induction a as [|c a IH]; intros raw; cbn; [intros H; inversion H; split; auto; now destruct (buf_line b)|].
  destruct (c =? LF); [discriminate|]. destruct (buf_line a) as [x y]. intros H; inversion H; subst.
  destruct (IH _ eq_refl) as [-> ->]. auto.
Qed.
Lemma buf_line_spec a raw rest : buf_line a = (raw, Some rest) <-> a = raw ++ [10] ++ rest /\ ~ In 10 raw.
Proof.
  split.
  - revert raw; induction a as [|c a IH]; intros raw; cbn; [discriminate|]. destruct (N.eqb_spec c LF) as [->|N'].
    + intros H; inversion H; subst. auto.
    + destruct (buf_line a) as [x y]. intros H; inversion H; subst. destruct (IH _ eq_refl) as [-> I]. split; auto.
      intros [X|X]; auto.
  - intros [-> I]. induction raw as [|c raw IH]; [reflexivity|]. cbn. destruct (N.eqb_spec c LF) as [->|N']; [destruct I; left; auto|].
    cbn in IH. rewrite IH; auto. intros X. apply I; right; auto.
Qed.
Lemma buf_length_line l n : buf_length l n = let '(raw, rest) := buf_line l in ((n + length raw)%nat, match rest with Some _ => true | None => false end).
Proof.
  revert n; induction l as [|c l IH]; intros n; cbn; [f_equal; lia|]. destruct (c =? LF); [f_equal; cbn; lia|].
  rewrite IH. destruct (buf_line l) as [raw rest]. cbn. f_equal. lia.
Qed.
Lemma line_length_content c n : line_length c n = match buf_line (content c) with (raw, Some _) => Some (n + length raw)%nat | (_, None) => None end.
Proof.
  revert n; induction c as [|b c IH]; intros n; [reflexivity|]. destruct b as [| |l]; cbn; auto.
  rewrite buf_length_line. destruct (buf_line l) as [raw [rest|]] eqn:E.
  - rewrite (buf_line_some _ _ _ _ E). reflexivity.
  - destruct (buf_line_none _ (content c) _ E) as [-> ->]. rewrite IH. destruct (buf_line (content c)) as [x [y|]]; cbn; auto.
    rewrite app_length. f_equal. lia.
Qed.
Lemma take_line_content c raw rest : buf_line (content c) = (raw, Some rest) -> exists c', take_line c = (raw, c') /\ content c' = rest.
Proof.
  revert raw; induction c as [|b c IH]; intros raw; [discriminate|]. destruct b as [| |l]; cbn; [apply IH|apply IH|].
  destruct (buf_line l) as [raw1 [rest1|]] eqn:E.
  - rewrite (buf_line_some _ _ _ _ E). intros H; inversion H; subst. eexists; split; reflexivity.
  - destruct (buf_line_none _ (content c) _ E) as [-> ->]. destruct (buf_line (content c)) as [x y]. cbn. intros H; inversion H; subst.
    destruct (IH _ eq_refl) as (c' & -> & C). eauto.
Qed.

(** ** Lines of a stream *)
Inductive outcome := More | Bad | Complete.
Fixpoint heads (fuel : nat) (h : http) (d : bytes) : outcome * http * bytes :=
  if done h then (Complete, h, d)
  else
    match buf_line d with
    | (_, None) => (More, h, d)
    | (raw, Some rest) =>
        match fuel with
        | O => (More, h, d)
        | S f => let '(r, h) := process_bytes h raw in if r =? RET_ERROR then (Bad, h, rest) else heads f h rest
        end
    end.
Lemma heads_fuel f g h d : (length d <= f)%nat -> (length d <= g)%nat -> heads f h d = heads g h d.
Proof.
  revert g h d; induction f as [|f IH]; intros g h d F G.
  - destruct d; [|cbn in F; lia]. destruct g; reflexivity.
  - destruct g as [|g]; [destruct d; [reflexivity|cbn in G; lia]|]. cbn [heads]. destruct (done h); auto.
    destruct (buf_line d) as [raw [rest|]] eqn:E; auto. destruct (process_bytes h raw) as [r h']. destruct (r =? RET_ERROR); auto.
    apply buf_line_spec in E as [-> _]. rewrite app_length in F, G. cbn in F, G. apply IH; lia.
Qed.
Definition heads_all (h : http) (d : bytes) := heads (length d) h d.
Lemma heads_done h d : done h = true -> heads_all h d = (Complete, h, d).
Proof. intros D. unfold heads_all. destruct d; cbn; now rewrite D. Qed.
Lemma heads_more h d raw : done h = false -> buf_line d = (raw, None) -> heads_all h d = (More, h, d).
Proof. intros D E. unfold heads_all. destruct d as [|c d]; cbn [length heads]; now rewrite D, E. Qed.
Lemma heads_line h raw rest : done h = false -> ~ In 10 raw ->
  heads_all h (raw ++ [10] ++ rest) = let '(r, h) := process_bytes h raw in if r =? RET_ERROR then (Bad, h, rest) else heads_all h rest.
Proof.
  intros D I. unfold heads_all. rewrite (heads_fuel _ (S (length raw + length rest))); [|lia|rewrite app_length; cbn; lia].
  cbn [heads]. rewrite D. rewrite (proj2 (buf_line_spec (raw ++ [10] ++ rest) raw rest)) by auto.
  destruct (process_bytes h raw) as [r h']. destruct (r =? RET_ERROR); auto. apply heads_fuel; lia.
Qed.
Definition agrees (x : outcome * http * bytes) (f : option handler) (y : option (N * http * chain)) : Prop :=
  let '(o, h, d) := x in
  exists c, content c = d /\ y = Some (match o with More => (RET_OK, h, c) | Bad => (RET_DONE, h, c) | Complete => parse_end f h c end).
Lemma parse_heads f h c : agrees (heads_all h (content c)) f (parse f h c).
Proof.
  unfold parse, heads_all. rewrite size_content.
  enough (G : forall n h c, (length (content c) <= n)%nat -> agrees (heads n h (content c)) f (parse_loop n f h c)) by (apply G; lia).
  clear h c. intros n.
  induction n as [|n IH]; intros h c L; cbn [heads parse_loop]; rewrite line_length_content; destruct (done h) eqn:D;
    try (cbn; exists c; split; reflexivity); destruct (buf_line (content c)) as [raw [rest|]] eqn:E; try (cbn; exists c; split; reflexivity).
  - apply buf_line_spec in E as [E _]. rewrite E, app_length in L. cbn in L. lia.
  - unfold process_line. destruct (take_line_content _ _ _ E) as (c' & -> & C). cbn [plus]. rewrite Nat.eqb_refl.
    destruct (process_bytes h raw) as [r h']. cbn [obind]. destruct (r =? RET_ERROR) eqn:R.
    + cbn. exists c'. auto.
    + subst rest. apply IH. apply buf_line_spec in E as [E _]. rewrite E, app_length in L. cbn in L. lia.
Qed.
Lemma heads_app h a b : match heads_all h a with
  | (More, h1, r) => heads_all h (a ++ b) = heads_all h1 (r ++ b)
  | (o, h1, r) => heads_all h (a ++ b) = (o, h1, r ++ b)
  end.
Proof.
  remember (length a) as n eqn:L. revert h a L. induction n as [n IH] using lt_wf_ind. intros h a ->.
  destruct (done h) eqn:D; [rewrite !heads_done by auto; reflexivity|].
  destruct (buf_line a) as [raw [rest|]] eqn:E; [|now rewrite (heads_more _ _ _ D E)].
  apply buf_line_spec in E as [-> I]. rewrite heads_line, <- app_assoc by auto. cbn [app]. change (10 :: rest ++ b) with ([10] ++ (rest ++ b)).
  rewrite heads_line by auto. destruct (process_bytes h raw) as [r h']. destruct (r =? RET_ERROR); [reflexivity|].
  apply (IH (length rest)); [rewrite app_length; cbn; lia|reflexivity].
Qed.

(** ** The header *)
Lemma process_ok h raw : exists l, line_of raw l /\ process_bytes h raw = line_step h l.
Proof. destruct (line_of_exists raw) as [l L]. exists l. split; auto. now apply process_bytes_line. Qed.
Lemma header_heads d fs rest : header d fs rest -> forall h, type h <> UNKNOWN -> done h = false ->
  heads_all h d = (Complete, set_done (set_fields h (fields h ++ fs)) true, rest).
Proof.
  induction 1 as [raw l rest I L B|raw l k v d fs rest I L FL H IH]; intros h T D; rewrite heads_line by auto; rewrite (process_bytes_line _ _ _ L).
  - rewrite line_step_blanks by auto. cbn [RET_OK RET_ERROR N.eqb]. rewrite heads_done by reflexivity. rewrite app_nil_r. now destruct h.
  - unfold line_step. destruct (N.eqb_spec (type h) UNKNOWN); [contradiction|]. rewrite (parse_field_ok _ _ _ _ FL). cbn [RET_OK RET_ERROR N.eqb].
    rewrite IH by auto. cbn. now rewrite <- app_assoc.
Qed.
Lemma heads_header h d h' rest : type h <> UNKNOWN -> done h = false -> heads_all h d = (Complete, h', rest) ->
  exists fs, header d fs rest /\ h' = set_done (set_fields h (fields h ++ fs)) true.
Proof.
  remember (length d) as n eqn:L. revert h d L. induction n as [n IH] using lt_wf_ind. intros h d -> T D.
  destruct (buf_line d) as [raw [r|]] eqn:E; [|rewrite (heads_more _ _ _ D E); discriminate].
  apply buf_line_spec in E as [-> I]. rewrite heads_line by auto. destruct (process_ok h raw) as (l & LN & ->).
  unfold line_step. destruct (N.eqb_spec (type h) UNKNOWN); [contradiction|].
  destruct (parse_field h l) as [x h1] eqn:P. apply parse_field_inv in P as [(B & -> & ->)|[(k & v & FL & -> & ->)|(-> & e & _ & ->)]]; cbn [RET_OK RET_ERROR N.eqb Pos.eqb]; [| |discriminate].
  - rewrite heads_done by reflexivity. intros H. inversion H; subst. exists []. split; [econstructor; eauto|]. rewrite app_nil_r. now destruct h.
  - intros H. apply (IH (length r)) in H as (fs & HD & ->); [|rewrite app_length; cbn; lia|reflexivity|exact T|exact D].
    exists ((k, v) :: fs). split; [econstructor; eauto|]. cbn. now rewrite <- app_assoc.
Qed.
Lemma message_heads d x fs rest h : message d x fs rest -> type h = UNKNOWN -> done h = false ->
  exists h', heads_all h d = (Complete, h', rest) /\ head_of h' = Some x /\ fields h' = fields h ++ fs /\ error h' = error h /\ body h' = body h /\ data h' = data h.
Proof.
  intros (raw & l & r & -> & I & L & F & H) T D. rewrite heads_line by auto. rewrite (process_bytes_line _ _ _ L).
  unfold line_step. rewrite T, N.eqb_refl. destruct (headline_ok h l x F) as (h1 & -> & HO & NT & K1 & K2 & K3 & K4 & K5). cbn [RET_OK RET_ERROR N.eqb].
  rewrite (header_heads _ _ _ H h1) by (auto; congruence). eexists. split; [reflexivity|]. rewrite <- K1, <- K2, <- K3, <- K4. repeat split. rewrite <- HO. reflexivity.
Qed.
Lemma heads_message d rest h h' : type h = UNKNOWN -> done h = false -> heads_all h d = (Complete, h', rest) ->
  (exists x fs, message d x fs rest /\ head_of h' = Some x /\ fields h' = fields h ++ fs /\ error h' = error h) \/
  (exists raw l, d = raw ++ [10] ++ rest /\ ~ In 10 raw /\ line_of raw l /\ blanks l /\ h' = set_done h true).
Proof.
  intros T D. destruct (buf_line d) as [raw [r|]] eqn:E; [|rewrite (heads_more _ _ _ D E); discriminate].
  apply buf_line_spec in E as [-> I]. rewrite heads_line by auto. destruct (process_ok h raw) as (l & LN & ->).
  unfold line_step. rewrite T, N.eqb_refl. destruct (parse_headline h l) as [x h1] eqn:P.
  apply headline_inv in P as [(B & -> & ->)|[(x' & FL & -> & HO & NT & K1 & K2 & K3 & K4 & K5)|(-> & _)]]; cbn [RET_OK RET_ERROR N.eqb Pos.eqb]; [| |discriminate].
  - rewrite heads_done by reflexivity. intros H; inversion H; subst. right. exists raw, l. auto.
  - intros H. left. apply heads_header in H as (fs & HD & ->); [|auto|congruence]. exists x', fs. split; [exists raw, l, r; auto|].
    rewrite <- K1, <- K4. repeat split. rewrite <- HO. reflexivity.
Qed.

(** ** Pieces *)
Lemma alike_refl x : x <> None -> alike x x.
Proof. destruct x as [[[r h] c]|]; cbn; auto. Qed.
Lemma alike_sym x y : alike x y -> alike y x.
Proof. destruct x as [[[r h] c]|], y as [[[r' h'] c']|]; cbn; intuition congruence. Qed.
Lemma alike_trans x y z : alike x y -> alike y z -> alike x z.
Proof. destruct x as [[[r h] c]|], y as [[[r' h'] c']|], z as [[[r2 h2] c2]|]; cbn; intuition congruence. Qed.
Lemma parse_end_alike f h c c' : fit f -> content c = content c' -> alike (Some (parse_end f h c)) (Some (parse_end f h c')).
Proof.
  intros F C. unfold parse_end. destruct f as [f|]; [|cbn; auto]. destruct F as [F _]. specialize (F h _ _ C).
  destruct (f h c) as [[r h1] c1], (f h c') as [[r' h1'] c1']. cbn in F. destruct F as (-> & -> & F). cbn. auto.
Qed.
Lemma agrees_alike f x y y' : fit f -> agrees x f y -> agrees x f y' -> alike y y'.
Proof.
  destruct x as [[o h] d]. intros F (c & C & ->) (c' & C' & ->). destruct o; [cbn; intuition congruence|cbn; intuition congruence|].
  apply parse_end_alike; [auto|congruence].
Qed.
Lemma parse_pieces f h a b : fit f -> match parse f h a with
  | Some (r, h1, rest) => if r =? RET_OK then alike (parse f h (a ++ b)) (parse f h1 (rest ++ b)) else alike (parse f h (a ++ b)) (Some (r, h1, rest ++ b))
  | None => False
  end.
Proof.
  intros F. pose proof (parse_heads f h a) as A. pose proof (parse_heads f h (a ++ b)) as AB. pose proof (heads_app h (content a) (content b)) as HA.
  rewrite <- content_app in HA. destruct (heads_all h (content a)) as [[o h1] d]. destruct A as (c & C & ->). subst d. destruct o.
  - cbn [RET_OK N.eqb]. rewrite HA in AB. rewrite <- content_app in AB. eapply agrees_alike; eauto. apply parse_heads.
  - cbn [RET_OK RET_DONE N.eqb]. rewrite HA in AB. rewrite <- content_app in AB. destruct AB as (c' & C' & ->). cbn. auto.
  - rewrite HA in AB. rewrite <- content_app in AB. destruct AB as (c' & C' & ->).
    assert (D1 : done h1 = true).
    { clear - HA. remember (length (content (a ++ b))) as n eqn:L. revert h L HA. generalize (content (a ++ b)), (content (c ++ b)).
      induction n as [n IH] using lt_wf_ind. intros l r h -> HA. destruct (done h) eqn:D.
      - rewrite heads_done in HA by auto. congruence.
      - destruct (buf_line l) as [raw [rest|]] eqn:E; [|rewrite (heads_more _ _ _ D E) in HA; discriminate].
        apply buf_line_spec in E as [-> I]. rewrite heads_line in HA by auto. destruct (process_bytes h raw) as [q h']. destruct (q =? RET_ERROR); [discriminate|].
        refine (IH (length rest) _ rest r h' eq_refl HA). rewrite app_length. cbn. lia. }
    pose proof (parse_end_alike f h1 _ _ F C') as PE. unfold parse_end in *.
    destruct f as [f|].
    + destruct F as [F1 F2]. destruct (f h1 c) as [[r h2] rest] eqn:E. specialize (F2 h1 c b r h2 rest D1 E).
      destruct (N.eqb_spec r RET_OK) as [->|NR].
      * cbn [RET_OK RET_DONE N.eqb]. destruct F2 as [D2 F2]. pose proof (parse_heads (Some f) h2 (rest ++ b)) as P2. rewrite heads_done in P2 by auto.
        destruct P2 as (c2 & C2 & ->).
        eapply alike_trans; [exact PE|]. clear PE.
        pose proof (F1 h2 _ _ C2) as F3. unfold parse_end.
        destruct (f h1 (c ++ b)) as [[r3 h3] c3], (f h2 (rest ++ b)) as [[r4 h4] c4], (f h2 c2) as [[r5 h5] c5].
        cbn in F2, F3 |- *. destruct F2 as (-> & -> & F2). destruct F3 as (-> & -> & F3). rewrite F2, F3. auto.
      * eapply alike_trans; [exact PE|]. clear PE. destruct (f h1 (c ++ b)) as [[r3 h3] c3]. cbn in F2 |- *. destruct F2 as (-> & -> & F2). auto.
    + cbn in PE |- *. destruct PE as (_ & _ & PE). auto.
Qed.
Lemma feed_pieces f h left p r : fit f -> alike (feed f h left (p :: r)) (parse f h (left ++ p ++ concat r)).
Proof.
  intros F. revert h left p; induction r as [|q r IH]; intros h left p; cbn [feed concat].
  - rewrite app_nil_r. pose proof (parse_pieces f h (left ++ p) [] F) as P. destruct (parse f h (left ++ p)) as [[[ret h1] c]|]; [|contradiction].
    cbn [obind]. destruct (N.eqb_spec ret RET_OK) as [->|NR]; [apply alike_refl; discriminate|]. rewrite app_nil_r. apply alike_refl; discriminate.
  - pose proof (parse_pieces f h (left ++ p) (q ++ concat r) F) as P. rewrite <- app_assoc in P. destruct (parse f h (left ++ p)) as [[[ret h1] c]|]; [|contradiction].
    cbn [obind]. destruct (N.eqb_spec ret RET_OK) as [->|NR]; [|now apply alike_sym].
    eapply alike_trans; [apply IH|]. now apply alike_sym.
Qed.

(** ** Output *)
Definition winv (c0 : chain) (t : bytes) (w : hc) : Prop :=
  exists l, out w = c0 ++ map BMem l /\ concat l = t /\ Forall (fun b => (1 <= length b <= 1024)%nat) l /\
    (forall b, In b (removelast l) -> length b = 1024%nat) /\
    (room w = O /\ l = [] \/ exists q b, l = q ++ [b] /\ (room w + length b = 1024)%nat).
Lemma append_last_map c0 q b l : append_last (c0 ++ map BMem (q ++ [b])) l = Some (c0 ++ map BMem (q ++ [b ++ l])).
Proof.
  rewrite !map_app. cbn [map]. rewrite !app_assoc. generalize (c0 ++ map BMem q). clear. intros c. induction c as [|x c IH]; [reflexivity|].
  cbn [app append_last]. rewrite IH. cbn [obind]. destruct x; destruct (c ++ [BMem b]) eqn:E; try (destruct c; discriminate); reflexivity.
Qed.
Lemma concat_snoc (q : list bytes) b : concat (q ++ [b]) = concat q ++ b.
Proof. rewrite concat_app. cbn. now rewrite app_nil_r. Qed.
(** One round: the bytes go behind those of the last buffer [b], which may be a new one. *)
Lemma write_round c0 t w (l : bytes) : winv c0 t w -> l <> [] -> exists q b w1, w1 = (if Nat.eqb (room w) 0 then mkHC (out w ++ [BMem []]) ALLOC_SIZE else w) /\
  out w1 = c0 ++ map BMem (q ++ [b]) /\ concat q ++ b = t /\ Forall (fun b => (1 <= length b <= 1024)%nat) q /\
  (forall b, In b q -> length b = 1024%nat) /\ (1 <= room w1)%nat /\ (room w1 + length b = 1024)%nat.
Proof.
  intros (ls & OU & T & F & R & X) N'. destruct (Nat.eqb_spec (room w) 0) as [E|E].
  - exists ls, [], (mkHC (out w ++ [BMem []]) ALLOC_SIZE). split; [reflexivity|]. cbn [out room]. split; [rewrite OU, map_app, app_assoc; reflexivity|].
    split; [now rewrite app_nil_r|]. split; [auto|]. split; [|unfold ALLOC_SIZE; cbn [length]; lia].
    intros b I. destruct X as [[_ ->]|(q & b' & -> & L)]; [destruct I|]. rewrite E in L. apply in_app_or in I as [I|[<-|[]]]; [|lia].
    apply R. rewrite removelast_app by discriminate. cbn. now rewrite app_nil_r.
  - destruct X as [[X _]|(q & b & -> & L)]; [lia|]. exists q, b, w. split; [reflexivity|]. split; [auto|]. rewrite concat_snoc in T. split; [auto|].
    rewrite Forall_app in F. split; [tauto|]. split; [|lia]. intros b' I. apply R. rewrite removelast_app by discriminate. cbn. now rewrite app_nil_r.
Qed.
Lemma winv_snoc c0 t w q b (l : bytes) r : out w = c0 ++ map BMem (q ++ [b]) -> concat q ++ b = t -> Forall (fun b => (1 <= length b <= 1024)%nat) q ->
  (forall b, In b q -> length b = 1024%nat) -> l <> [] -> (r + length b + length l = 1024)%nat -> winv c0 (t ++ l) (mkHC (c0 ++ map BMem (q ++ [b ++ l])) r).
Proof.
  intros OU T F R N' L. exists (q ++ [b ++ l]). cbn [out room]. split; [reflexivity|]. split; [rewrite concat_snoc; subst; now rewrite app_assoc|].
  assert (1 <= length l)%nat by (destruct l; [congruence|cbn; lia]).
  split; [apply Forall_app; split; [auto|apply Forall_cons; [rewrite app_length; lia|apply Forall_nil]]|]. split.
  - intros b' I. rewrite removelast_app in I by discriminate. cbn in I. rewrite app_nil_r in I. auto.
  - right. exists q, (b ++ l). split; auto. rewrite app_length. lia.
Qed.
Lemma write_ok c0 t w l : winv c0 t w -> exists w', write w l = Some w' /\ winv c0 (t ++ l) w'.
Proof.
  unfold write. enough (G : forall n t w l, (length l <= n)%nat -> winv c0 t w -> exists w', write_loop n w l = Some w' /\ winv c0 (t ++ l) w') by (apply G; lia).
  clear t w l. induction n as [|n IH]; intros t w l L W.
  - destruct l; [|cbn in L; lia]. exists w. split; [reflexivity|]. now rewrite app_nil_r.
  - destruct l as [|c l0]; [exists w; split; [reflexivity|now rewrite app_nil_r]|]. set (l := c :: l0) in *.
    destruct (write_round c0 t w l W) as (q & b & w1 & E1 & OU & T & F & R & RM & LB); [discriminate|].
    unfold l at 1. cbn [write_loop]. fold l. cbv zeta. rewrite <- E1. rewrite OU.
    destruct (Nat.leb_spec (length l) (room w1)).
    + rewrite append_last_map. cbn [obind]. destruct n; cbn [write_loop]; eexists; (split; [reflexivity|]); (eapply winv_snoc; eauto; [discriminate|lia]).
    + rewrite append_last_map. cbn [obind].
      assert (LF1 : length (firstn (room w1) l) = room w1) by (rewrite firstn_length; lia).
      destruct (IH (t ++ firstn (room w1) l) (mkHC (c0 ++ map BMem (q ++ [b ++ firstn (room w1) l])) 0) (skipn (room w1) l)) as (w' & -> & W').
      * rewrite skipn_length. lia.
      * eapply winv_snoc; eauto; [|lia]. intros X. rewrite X in LF1. cbn in LF1. lia.
      * exists w'. split; auto. rewrite <- app_assoc, firstn_skipn in W'. exact W'.
Qed.
Definition writes (f : writer) (l : bytes) : Prop := forall c0 t w, winv c0 t w -> exists w', f w = Some (inr w') /\ winv c0 (t ++ l) w'.
Lemma writes_emit l : writes (emit l) l.
Proof. intros c0 t w W. unfold emit. destruct (write_ok c0 t w l W) as (w' & -> & W'). exists w'. split; [reflexivity|exact W']. Qed.
Lemma writes_then f g a b : writes f a -> writes g b -> writes (andthen f g) (a ++ b).
Proof.
  intros F G c0 t w W. unfold andthen. destruct (F c0 t w W) as (w1 & -> & W1). cbn [obind]. destruct (G c0 _ w1 W1) as (w2 & -> & W2).
  exists w2. split; auto. now rewrite app_assoc.
Qed.
Lemma writes_fields fs : writes (generate_fields fs) (concat (map field_text fs)).
Proof.
  induction fs as [|[k v] fs IH]; cbn [generate_fields map concat]; [apply writes_emit|].
  assert (E : field_text (k, v) ++ concat (map field_text fs) = k ++ [58; 32] ++ match v with Some v => v | None => [] end ++ [CR; LF] ++ concat (map field_text fs)).
  { unfold field_text. cbn [fst snd]. rewrite <- !app_assoc. reflexivity. }
  rewrite E. repeat apply writes_then; try apply writes_emit; auto. destruct v; apply writes_emit.
Qed.
Lemma find_status s : find (fun r : bytes * bytes * N => s =? snd r) http_status = find (fun r => snd r =? s) http_status.
Proof. generalize http_status. induction l as [|r l IH]; [reflexivity|]. cbn [find]. rewrite (N.eqb_sym s). destruct (snd r =? s); auto. Qed.
Lemma writes_head h x l : to_write h = Some x -> head_text x l -> writes (generate_head h) (l ++ fields_text (fields h)).
Proof.
  unfold to_write, generate_head. intros T L.
  assert (G : forall a, writes (if type h =? RESPONSE then andthen (generate_version h) (andthen (emit [32]) (generate_status h))
     else andthen (generate_method h) (andthen (emit [32]) (andthen (generate_uri h) (andthen (emit [32]) (generate_version h))))) a ->
     l = a ++ [CR; LF] -> writes (andthen (if type h =? RESPONSE then andthen (generate_version h) (andthen (emit [32]) (generate_status h))
     else andthen (generate_method h) (andthen (emit [32]) (andthen (generate_uri h) (andthen (emit [32]) (generate_version h)))))
     (andthen (emit [CR; LF]) (andthen (generate_fields (fields h)) (emit [CR; LF])))) (l ++ fields_text (fields h))).
  { intros a W ->. unfold fields_text. rewrite <- !app_assoc. repeat apply writes_then; auto; try apply writes_emit. apply writes_fields. }
  destruct (N.eqb_spec (type h) REQUEST) as [TY|TY].
  - inversion T; subst. destruct L as (mt & vt & M & V & ->).
    eapply (G (mt ++ [32] ++ (match uri h with Some u => u | None => [47] end ++ match args h with Some a => 63 :: a | None => [] end) ++ [32] ++ vt)).
    2:{ unfold CR, LF. now rewrite <- !app_assoc. }
    rewrite TY. cbn [REQUEST RESPONSE N.eqb Pos.eqb]. unfold generate_method, generate_version, generate_uri. rewrite M, V.
    repeat apply writes_then; try apply writes_emit. destruct (args h) as [a|]; [|apply writes_emit]. change (63 :: a) with ([63] ++ a). apply writes_then; apply writes_emit.
  - destruct (N.eqb_spec (type h) RESPONSE) as [TR|TR]; [|discriminate]. inversion T; subst. destruct L as (vt & code & msg & V & R & ->).
    eapply (G (vt ++ [32] ++ code ++ [32] ++ msg)).
    2:{ unfold CR, LF. now rewrite <- !app_assoc. }
    unfold generate_version, generate_status. rewrite V, find_status. unfold reason in R.
    destruct (find _ http_status) as [[[msg' code'] n]|]; [|discriminate]. inversion R; subst.
    repeat apply writes_then; apply writes_emit.
Qed.
Lemma generate_text h x l c : to_write h = Some x -> head_text x l ->
  exists h' new, generate None h c = Some (RET_DONE, h', c ++ new ++ body h) /\ packed new (l ++ fields_text (fields h)) /\
    h' = set_error (set_done (set_body h []) false) 200.
Proof.
  intros T L. unfold generate. destruct (N.eqb_spec (type h) UNKNOWN) as [U|U].
  { unfold to_write in T. rewrite U in T. discriminate. }
  assert (W : forall h0, to_write h0 = Some x -> fields h0 = fields h -> body h0 = body h -> exists new,
    generate_write_all h0 c = Some (RET_DONE, set_error (set_done (set_body h0 []) false) 200, c ++ new ++ body h) /\ packed new (l ++ fields_text (fields h))).
  { intros h0 T0 F0 B0. unfold generate_write_all. destruct (writes_head h0 x l T0 L c [] (mkHC c 0)) as (w' & E & ls & OU & C & F & R & _).
    - exists []. cbn. rewrite app_nil_r. repeat split; auto. intros b [].
    - rewrite E. cbn [obind]. rewrite OU, B0. exists (map BMem ls). split; [now rewrite app_assoc|]. exists ls. rewrite F0 in C. auto. }
  destruct (done h) eqn:D.
  - destruct (W h T eq_refl eq_refl) as (new & -> & P). eauto.
  - destruct (W (set_done h true) T eq_refl eq_refl) as (new & -> & P). eexists _, new. split; [reflexivity|]. split; [exact P|]. reflexivity.
Qed.
Lemma packed_content c t : packed c t -> content c = t.
Proof. intros (l & -> & <- & _). induction l as [|b l IH]; [reflexivity|]. cbn. now rewrite IH. Qed.

(** ** Text and meaning *)
Lemma spelled_refl w : spelled w w.
Proof. induction w; constructor; auto. now left. Qed.
Lemma row_refl rows i r : nth_error rows (N.to_nat i) = Some r -> row rows i r.
Proof. intros E. exists r. split; auto. apply spelled_refl. Qed.
Lemma no_lf_row rows i r : rows = http_version \/ rows = http_method -> nth_error rows (N.to_nat i) = Some r -> ~ In 10 r.
Proof.
  intros R E. apply nth_error_In in E. destruct R as [->| ->]; cbn in E; repeat destruct E as [<-|E]; try (destruct E); cbn; intros Z;
    repeat destruct Z as [Z|Z]; try discriminate; auto.
Qed.
Definition good_reason (r : bytes * bytes * N) : bool :=
  let '(msg, code, n) := r in
  negb (match code with [] => true | _ => false end) && forallb (fun c => (48 <=? c) && (c <=? 57)) code && (number code mod 2 ^ 32 =? n) &&
  match msg with c :: _ => negb (blank c) | [] => false end && forallb (fun c => negb (c =? 10)) msg && forallb (fun c => negb (c =? 10)) code.
Lemma reason_good s code msg : reason s = Some (code, msg) ->
  code <> [] /\ digits code /\ s = number code mod 2 ^ 32 /\ starts_dark msg /\ ~ In 10 msg /\ ~ In 10 code.
Proof.
  unfold reason. destruct (find _ http_status) as [[[m c] n]|] eqn:F; [|discriminate]. intros H; inversion H; subst. clear H.
  apply find_some in F as [I E]. cbn in E. apply N.eqb_eq in E. subst n.
  assert (A : forallb good_reason http_status = true) by (vm_compute; reflexivity).
  rewrite forallb_forall in A. specialize (A _ I). unfold good_reason in A. rewrite !andb_true_iff in A. destruct A as (((((A1 & A2) & A3) & A4) & A5) & A6).
  apply N.eqb_eq in A3. rewrite forallb_forall in A2, A5, A6. split; [destruct code; discriminate|]. split; [apply Forall_forall; intros x X; apply A2 in X; lia|].
  split; [auto|]. split; [|split; intros X; [apply A5 in X|apply A6 in X]; discriminate].
  destruct msg as [|x msg]; [discriminate|]. exists x, msg. split; auto. apply blank_not. now destruct (blank x).
Qed.
Lemma first_line_text x l : good_head x -> head_text x l -> exists l0, l = l0 ++ [13; 10] /\ ~ In 10 l0 /\ first_line l0 x.
Proof.
  destruct x as [m u a v|v s t]; cbn [good_head head_text].
  - intros (M & V & FU & Q & A) (mt & vt & RM & RV & ->).
    exists (mt ++ [32] ++ u ++ (match a with Some a => 63 :: a | None => [] end) ++ [32] ++ vt). split; [now rewrite <- !app_assoc|].
    assert (NL : forall w, Forall word_byte w -> ~ In 10 w). { intros w F I. rewrite Forall_forall in F. apply F in I as [_ I]. congruence. }
    split.
    + rewrite !in_app_iff. intros [I|[[I|[]]|[I|[I|[[I|[]]|I]]]]]; try discriminate.
      * eapply no_lf_row; [right; reflexivity|exact RM|exact I].
      * eapply NL; eauto.
      * destruct a as [a|]; [|destruct I]. destruct I as [I|I]; [discriminate|]. eapply NL; [|exact I]. tauto.
      * eapply no_lf_row; [left; reflexivity|exact RV|exact I].
    + exists [], mt, [32], (u ++ match a with Some a => 63 :: a | None => [] end), [32], vt.
      assert (BL : blanks [32]) by (constructor; [left; reflexivity|constructor]).
      assert (FD : forall w, Forall word_byte w -> Forall (fun c => ~ is_blank c) w). { intros w F. eapply Forall_impl; [|exact F]. intros c []; auto. }
      split; [now rewrite <- !app_assoc|]. split; [constructor|]. split; [auto|]. split; [discriminate|]. split; [auto|]. split; [now apply row_refl|].
      split; [|right; split; [discriminate|now apply row_refl]].
      destruct a as [a|].
      * destruct A as [NA FA]. split; [destruct u; discriminate|]. split; [|split; [auto|split; [auto|reflexivity]]].
        apply Forall_app. split; [auto|]. constructor; [unfold is_blank; lia|auto].
      * rewrite app_nil_r. split; [auto|]. split; [auto|]. split; [auto|]. left; reflexivity.
  - intros (V & code & msg & R & ->) (vt & code' & msg' & RV & R' & ->). rewrite R in R'. inversion R'; subst. clear R'.
    destruct (reason_good _ _ _ R) as (NC & DC & S1 & DM & NM & NC').
    exists (vt ++ [32] ++ code' ++ [32] ++ msg'). split; [now rewrite <- !app_assoc|]. split.
    + rewrite !in_app_iff. intros [I|[[I|[]]|[I|[[I|[]]|I]]]]; try discriminate; auto. eapply no_lf_row; [left; reflexivity|exact RV|exact I].
    + assert (BL : blanks [32]) by (constructor; [left; reflexivity|constructor]).
      exists [], vt, [32], code', [32], msg'. split; [reflexivity|]. split; [constructor|]. split; [auto|]. split; [discriminate|]. split; [auto|].
      split; [now apply row_refl|]. split; [auto|]. split; [auto|]. split; [auto|]. split; [auto|]. split; [discriminate|auto].
Qed.
Lemma line_cr l : line_of (l ++ [13]) l.
Proof. exact (Line_cr l 0). Qed.
Lemma header_text fs rest : Forall good_field fs -> header (fields_text fs ++ rest) fs rest.
Proof.
  intros F. unfold fields_text. induction F as [|[k v] fs G F IH].
  - cbn. change (13 :: 10 :: rest) with ([13] ++ [10] ++ rest). apply (Header_end [13] []); [|apply (line_cr [])|constructor]. intros [X|[]]; discriminate.
  - cbn [map concat]. rewrite <- !app_assoc. rewrite <- app_assoc in IH.
    destruct G as (NK & FK & GV). cbn [fst snd] in *.
    set (l := k ++ [58; 32] ++ match v with Some v => v | None => [] end).
    assert (E : field_text (k, v) ++ concat (map field_text fs) ++ [13; 10] ++ rest = (l ++ [13]) ++ [10] ++ (concat (map field_text fs) ++ [13; 10] ++ rest)).
    { unfold field_text, l. cbn [fst snd]. rewrite <- !app_assoc. reflexivity. }
    rewrite E. apply (Header_field _ l); [|apply line_cr| |exact IH].
    + unfold l. rewrite !in_app_iff. intros [[I|[[I|[I|[]]]|I]]|[I|[]]]; try discriminate.
      * rewrite Forall_forall in FK. apply FK in I as [_ I]. congruence.
      * destruct v as [v|]; [|destruct I]. tauto.
    + exists [], [], ([58; 32] ++ match v with Some v => v | None => [] end). split; [reflexivity|]. split; [constructor|]. split; [constructor|]. split; [auto|].
      split; [eapply Forall_impl; [|exact FK]; intros c []; auto|].
      assert (BL : blanks [32]) by (constructor; [left; reflexivity|constructor]).
      destruct v as [v|]; [exists [32]; tauto|right; exists [32]; auto].
Qed.
Lemma message_text x l fs rest : good_head x -> head_text x l -> Forall good_field fs -> message (l ++ fields_text fs ++ rest) x fs rest.
Proof.
  intros G T F. destruct (first_line_text x l G T) as (l0 & -> & N' & FL). exists (l0 ++ [13]), l0, (fields_text fs ++ rest).
  split; [now rewrite <- !app_assoc|]. split; [rewrite in_app_iff; intros [I|[I|[]]]; [auto|discriminate]|]. split; [apply line_cr|]. split; [auto|].
  now apply header_text.
Qed.
(** Every good head has a text. *)
Lemma text_exists x : good_head x -> exists l, head_text x l.
Proof.
  destruct x as [m u a v|v s t]; cbn [good_head head_text].
  - intros (M & V & _). destruct (nth_error http_method (N.to_nat m)) as [mt|] eqn:A.
    2:{ apply nth_error_None in A. cbn in A. lia. }
    destruct (nth_error http_version (N.to_nat v)) as [vt|] eqn:B.
    2:{ apply nth_error_None in B. cbn in B. lia. }
    eexists. exists mt, vt. auto.
  - intros (V & code & msg & R & _). destruct (nth_error http_version (N.to_nat v)) as [vt|] eqn:B.
    2:{ apply nth_error_None in B. cbn in B. lia. }
    eexists. exists vt, code, msg. auto.
Qed.

(** What has been read can be written. *)
Lemma line_of_no_lf raw l : line_of raw l -> ~ In 10 raw -> ~ In 10 l.
Proof. intros L N' I. apply N'. inversion L; subst; apply in_or_app; auto. Qed.
Lemma field_good l k v : field_line l k v -> ~ In 10 l -> good_field (k, v).
Proof.
  intros (b0 & b1 & t & -> & _ & _ & K & F & V) N'. rewrite !in_app_iff in N'. split; [exact K|]. cbn [fst snd]. split.
  - apply Forall_forall. intros c I. rewrite Forall_forall in F. split; auto. intros ->. tauto.
  - destruct v as [v|]; [|exact I]. destruct V as (b2 & -> & _ & D). split; auto. intros I. apply N'. do 3 right. right. apply in_or_app. auto.
Qed.
Lemma header_good d fs rest : header d fs rest -> Forall good_field fs.
Proof.
  induction 1 as [|raw l k v d fs rest I L FL H IH]; constructor; auto. eapply field_good; eauto. eapply line_of_no_lf; eauto.
Qed.
Lemma first_line_good l x : first_line l x -> ~ In 10 l ->
  match x with Req m u a v => u <> [] \/ a <> None | Resp v s t => match reason s with Some (_, msg) => t = Some msg | None => False end end -> good_head x.
Proof.
  intros (b0 & w & b1 & t & b2 & e & -> & _ & _ & _ & _ & X) N' C. rewrite !in_app_iff in N'. destruct x as [m u a v|v s msg]; cbn [good_head].
  - destruct X as (R & (NT & FT & Q & A) & V).
    assert (FW : Forall word_byte t). { apply Forall_forall. intros c I. rewrite Forall_forall in FT. split; auto. intros ->. tauto. }
    split; [destruct R as (r & E & _); assert (N.to_nat m < 8)%nat by (apply (proj1 (nth_error_Some http_method (N.to_nat m))); intros X; pose proof (eq_trans (eq_sym E) X); discriminate); lia|].
    split; [destruct V as [[_ ->]|[_ (r & E & _)]]; [lia|]; assert (N.to_nat v < 2)%nat by (apply (proj1 (nth_error_Some http_version (N.to_nat v))); intros X; pose proof (eq_trans (eq_sym E) X); discriminate); lia|].
    destruct a as [a|].
    + destruct A as [NA ->]. apply Forall_app in FW as [FU FA]. inversion FA; subst. auto.
    + destruct A as [->| ->]; [|apply Forall_app in FW as [FW _]]; (split; [auto|split; [auto|]]); destruct C; congruence.
  - destruct X as ((r & E & _) & _).
    split; [assert (N.to_nat v < 2)%nat by (apply (proj1 (nth_error_Some http_version (N.to_nat v))); intros X; pose proof (eq_trans (eq_sym E) X); discriminate); lia|].
    destruct (reason s) as [[code m]|]; [|contradiction]. eauto.
Qed.

(** ** Names of header fields *)
Lemma casecmp_refl k : casecmp k k = true.
Proof.
  unfold casecmp. rewrite Nat.eqb_refl. cbn [andb]. induction k as [|c k IH]; [reflexivity|]. cbn. rewrite N.eqb_refl, IH. now rewrite orb_true_r.
Qed.
Lemma same_refl k : same k k = true.
Proof. unfold same. now rewrite N.eqb_refl, casecmp_refl. Qed.
Lemma same_spelled k k' : ~ In 0 k' -> same k k' = true -> spelled k k'.
Proof. intros Z S1. unfold same in S1. apply andb_prop in S1 as [_ S1]. now apply casecmp_spelled. Qed.
Lemma spelled_sym k k' : spelled k k' -> spelled k' k.
Proof. induction 1; constructor; auto. unfold same_letter in *. lia. Qed.
Lemma spelled_trans a b c : spelled a b -> spelled b c -> spelled a c.
Proof.
  intros H. revert c; induction H as [|x y a b E H IH]; intros c X; inversion X; subst; constructor; [unfold same_letter in *; lia|apply IH; auto].
Qed.
Lemma same_named k fs f : plain fs -> one_spelling k fs -> In f fs -> same k (fst f) = true <-> named k f.
Proof.
  intros P O1 I. split; [intros S1; apply same_spelled; auto|]. intros NM. rewrite (O1 _ I NM). apply same_refl.
Qed.
Lemma plain_cons f fs : plain (f :: fs) -> plain fs.
Proof. intros P g I. apply P. right; auto. Qed.
Lemma one_cons k f fs : one_spelling k (f :: fs) -> one_spelling k fs.
Proof. intros P g I. apply P. right; auto. Qed.
Lemma get_first k fs : plain fs -> one_spelling k fs -> first_value k fs (match find (fun e => same k (fst e)) fs with Some (_, v) => v | None => None end).
Proof.
  induction fs as [|f fs IH]; intros P O1; [constructor|]. cbn [find]. pose proof (same_named k _ f P O1 (or_introl eq_refl)) as SN.
  destruct (same k (fst f)) eqn:E.
  - destruct f as [n v]. apply (First_here k (n, v)). now apply SN.
  - apply First_later; [intros X; apply SN in X; congruence|]. apply IH; [eapply plain_cons|eapply one_cons]; eauto.
Qed.
Lemma values_all k fs : plain fs -> one_spelling k fs ->
  all_values k fs (concat (map (fun e : bytes * option bytes => match snd e with Some v => [v] | None => [] end) (filter (fun e => same k (fst e)) fs))).
Proof.
  induction fs as [|f fs IH]; intros P O1; [constructor|]. cbn [filter]. pose proof (same_named k _ f P O1 (or_introl eq_refl)) as SN.
  assert (IH' := IH (plain_cons _ _ P) (one_cons _ _ _ O1)).
  destruct (same k (fst f)) eqn:E.
  - cbn [map concat]. destruct (snd f) as [v|] eqn:V; [apply All_here; auto|apply All_empty; auto]; now apply SN.
  - apply All_other; auto. intros X. apply SN in X. congruence.
Qed.
Lemma first_unique k fs v w : first_value k fs v -> first_value k fs w -> v = w.
Proof. intros H. revert w. induction H; intros w X; inversion X; subst; auto; contradiction. Qed.
Lemma all_unique k fs v w : all_values k fs v -> all_values k fs w -> v = w.
Proof. intros H. revert w. induction H; intros w X; inversion X; subst; auto; try contradiction; try congruence. f_equal; [congruence|auto]. Qed.
Lemma join_commas l : join (length l) l = commas l.
Proof.
  induction l as [|v l IH]; [reflexivity|]. cbn [join length commas]. destruct l as [|w l].
  - cbn. now rewrite app_nil_r.
  - assert (E : Nat.ltb 1 (S (length (w :: l))) = true) by (apply Nat.ltb_lt; cbn; lia). rewrite E.
    replace (S (length (w :: l)) - 1)%nat with (length (w :: l)) by lia. rewrite IH. reflexivity.
Qed.
Lemma total_length (l : list bytes) n : fold_left (fun n v => n + N.of_nat (length v) + 1) l n = n + N.of_nat (length (concat l) + length l).
Proof. revert n; induction l as [|v l IH]; intros n; cbn [fold_left concat length]; [lia|]. rewrite IH, app_length. lia. Qed.
(** Other names do not notice. *)
Definition other_same (k : bytes) (fs fs' : list (bytes * option bytes)) : Prop :=
  forall k2, ~ spelled k2 k -> (forall v, first_value k2 fs v <-> first_value k2 fs' v) /\ (forall l, all_values k2 fs l <-> all_values k2 fs' l).
Lemma other_cons k f fs fs' : other_same k fs fs' -> other_same k (f :: fs) (f :: fs').
Proof.
  intros O1 k2 N'. destruct (O1 k2 N') as [A B]. split.
  - intros v. split; intros X; inversion X; subst; try (constructor; auto; now apply A).
  - intros l. split; intros X; inversion X; subst; (constructor; auto; now apply B).
Qed.
Lemma other_drop k f fs : spelled k (fst f) -> other_same k (f :: fs) fs.
Proof.
  intros S1 k2 N'. assert (X : ~ named k2 f). { intros X. apply N'. eapply spelled_trans; [exact X|]. now apply spelled_sym. }
  split; intros v; split; intros Y; try (inversion Y; subst; auto; contradiction); [now apply First_later|now apply All_other].
Qed.
Lemma other_trans k a b c : other_same k a b -> other_same k b c -> other_same k a c.
Proof. intros X Y k2 N'. destruct (X k2 N') as [A B], (Y k2 N') as [C D]. split; intros v; [rewrite A, C|rewrite B, D]; reflexivity. Qed.
Lemma other_sym k a b : other_same k a b -> other_same k b a.
Proof. intros X k2 N'. destruct (X k2 N') as [A B]. split; intros v; [rewrite A|rewrite B]; reflexivity. Qed.
Lemma replace_other k v fs : plain fs -> other_same k fs (replace_first fs k v).
Proof.
  induction fs as [|f fs IH]; intros P; cbn [replace_first].
  - apply other_sym. apply other_drop. apply spelled_refl.
  - destruct (same k (fst f)) eqn:S1.
    + apply (other_trans _ _ fs); [apply other_drop; apply same_spelled; auto; apply P; left; auto|].
      apply other_sym. apply other_drop. apply spelled_refl.
    + apply other_cons, IH. eapply plain_cons; eauto.
Qed.
Lemma replace_find k v fs : find (fun e => same k (fst e)) (replace_first fs k v) = Some (k, Some v).
Proof.
  induction fs as [|f fs IH]; cbn [replace_first find fst]; [now rewrite same_refl|]. destruct (same k (fst f)) eqn:S1; cbn [find fst]; [now rewrite same_refl|now rewrite S1].
Qed.
Lemma remove_all n k fs : (length fs <= n)%nat -> (forall f, In f fs -> same k (fst f) = true -> snd f <> None) ->
  remove_loop n fs k = filter (fun f => negb (same k (fst f))) fs.
Proof.
  assert (NF : forall fs, find (fun e : bytes * option bytes => same k (fst e)) fs = None -> filter (fun f => negb (same k (fst f))) fs = fs).
  { clear. induction fs as [|f fs IH]; [reflexivity|]. cbn [find filter]. destruct (same k (fst f)); [discriminate|]. intros E. cbn. now rewrite IH. }
  revert fs; induction n as [|n IH]; intros fs L V; [destruct fs; [reflexivity|cbn in L; lia]|]. cbn [remove_loop].
  destruct (find _ fs) as [[x [v|]]|] eqn:F; [| |now rewrite NF].
  - rewrite IH.
    + clear - F. induction fs as [|f fs IH]; [discriminate|]. cbn [find remove_first filter] in *. destruct (same k (fst f)) eqn:S1; [reflexivity|].
      cbn [filter]. rewrite S1. cbn [negb]. f_equal. auto.
    + clear - F L. revert n L; induction fs as [|f fs IH]; [discriminate|]. cbn [find remove_first] in *. intros n L. destruct (same k (fst f)); cbn in L |- *; [lia|].
      destruct n as [|n]; [destruct fs; [discriminate|cbn in L; lia]|]. specialize (IH F n). lia.
    + intros f I. apply V. clear - I. induction fs as [|g fs IH]; [destruct I|]. cbn [remove_first] in I. destruct (same k (fst g)); [right; auto|].
      destruct I as [<-|I]; [left; auto|right; auto].
  - apply find_some in F as [I S1]. destruct (V _ I S1). reflexivity.
Qed.
Lemma filter_other k fs : plain fs -> other_same k fs (filter (fun f => negb (same k (fst f))) fs).
Proof.
  induction fs as [|f fs IH]; intros P; cbn [filter]; [intros k2 _; split; reflexivity|].
  assert (IH' := IH (plain_cons _ _ P)). destruct (same k (fst f)) eqn:S1; cbn [negb].
  - apply (other_trans _ _ fs); [apply other_drop; apply same_spelled; auto; apply P; left; auto|auto].
  - now apply other_cons.
Qed.
Lemma filter_none k fs : plain fs -> one_spelling k fs -> forall f, In f (filter (fun f => negb (same k (fst f))) fs) -> ~ named k f.
Proof. intros P O1 f I NM. apply filter_In in I as [I S1]. apply (same_named k fs f P O1 I) in NM. rewrite NM in S1. discriminate. Qed.
