Require Import List Arith NArith ZArith Lia Bool.
Require Import ZifyBool ZifyNat ZifyN.
Require Import Verif.Base Verif.StrModel Verif.StrSpec.
Import ListNotations.

(** ** Slice *)
Lemma span_while_spec f l : let '(a, b) := span_while f l in
  l = a ++ b /\ Forall (fun c => f c = true) a /\ match b with [] => True | c :: _ => f c = false end.
Proof.
  induction l as [|c t IH]; cbn [span_while]; [repeat split; constructor|].
  destruct (f c) eqn:E.
  - destruct (span_while f t) as [a b]. destruct IH as (-> & H1 & H2). repeat split; auto.
  - repeat split; auto.
Qed.

Lemma slice_rec_ok sep : forall fuel s, length s < fuel ->
  exists ps, slice_rec fuel sep s = Some ps /\ runs (fun c => sep c = true) s ps.
Proof.
  induction fuel as [|f IH]; intros s Hf; [lia|]. cbn [slice_rec].
  pose proof (span_while_spec sep s) as H. destruct (span_while sep s) as [g rest]. cbn [snd].
  destruct H as (Es & Hg & Hr). destruct rest as [|c rest].
  - exists []. split; auto. rewrite Es, app_nil_r. constructor; auto.
  - pose proof (span_while_spec (fun c => negb (sep c)) (c :: rest)) as H2.
    destruct (span_while (fun c => negb (sep c)) (c :: rest)) as [piece rest'] eqn:Esp.
    destruct H2 as (E2 & Hp & Hr').
    assert (Hne : piece <> []).
    { cbn [span_while] in Esp. rewrite Hr in Esp. cbn [negb] in Esp.
      destruct (span_while (fun c => negb (sep c)) rest). injection Esp as <- _. congruence. }
    assert (Hp' : Forall (fun c => ~ sep c = true) piece).
    { eapply Forall_impl; [|exact Hp]. intros x Hx. cbn beta in Hx. destruct (sep x); [discriminate|congruence]. }
    assert (Hl : length rest' < f).
    { apply (f_equal (@length N)) in E2. apply (f_equal (@length N)) in Es.
      rewrite app_length in *. cbn [length] in *. destruct piece; [congruence|]. cbn [length] in *. lia. }
    destruct (IH rest' Hl) as (ps & E3 & HR). rewrite E3. cbn [obind].
    exists (piece :: ps). split; auto. rewrite Es, E2.
    destruct rest' as [|d rest'].
    + inversion HR as [g' Hg' | g' p' Hg' Hp'' | g' p' x s' ps' Hg' Hp'' ].
      * rewrite app_nil_r. apply runs_last; auto.
      * destruct g'; destruct p'; cbn in *; try congruence.
      * destruct g'; destruct p'; cbn in *; try congruence.
    + apply runs_cons; auto. cbn beta in Hr'. destruct (sep d); [reflexivity|discriminate].
Qed.

Lemma is_sep_iff seps c : is_sep seps c = true <-> In c seps.
Proof.
  unfold is_sep. rewrite existsb_exists. split.
  - intros (x & H & E). apply N.eqb_eq in E. subst; auto.
  - intros H. exists c. split; auto. apply N.eqb_refl.
Qed.

Lemma runs_ext (P Q : N -> Prop) s ps : (forall c, P c <-> Q c) -> runs P s ps -> runs Q s ps.
Proof.
  intros HPQ. induction 1 as [g Hg|g p Hg Hne Hp|g p c s ps Hg Hne Hp Hc HR IH].
  - constructor. eapply Forall_impl; [|exact Hg]. intros; now apply HPQ.
  - constructor; auto; eapply Forall_impl; try eassumption; cbn; intros; rewrite <- ?HPQ; auto; now apply HPQ.
  - constructor; auto.
    + eapply Forall_impl; [|exact Hg]. intros; now apply HPQ.
    + eapply Forall_impl; [|exact Hp]. cbn; intros a Ha Hq. apply Ha. now apply HPQ.
    + now apply HPQ.
Qed.

Lemma slice_ok s seps : exists ps, slice s seps = Some ps /\ runs (fun c => In c seps) s ps.
Proof.
  destruct (slice_rec_ok (is_sep seps) (S (length s)) s ltac:(lia)) as (ps & E & H).
  exists ps. split; auto. eapply runs_ext; [|exact H]. intros c. apply is_sep_iff.
Qed.

(** The run decomposition is unique, so the specification determines the result. *)
Lemma head_nonsep {sep : N -> Prop} g g' x y (l l' : list N) :
  Forall sep g -> Forall sep g' -> ~ sep x -> ~ sep y -> g ++ x :: l = g' ++ y :: l' -> g = g' /\ x = y /\ l = l'.
Proof.
  intros Hg. revert g'. induction Hg as [|a g Ha Hg IH]; intros [|b g'] Hg' Hx Hy E; cbn in E.
  - injection E as -> ->. auto.
  - injection E as -> _. inversion Hg'; contradiction.
  - injection E as -> _. contradiction.
  - injection E as -> E. inversion Hg' as [|? ? Hb Hg'']; subst.
    destruct (IH g' Hg'' Hx Hy E) as (-> & -> & ->). auto.
Qed.

Lemma seps_no_nonsep {sep : N -> Prop} g g' x l : Forall sep g -> ~ sep x -> g <> g' ++ x :: l.
Proof.
  intros Hg Hx E. rewrite E in Hg. apply Forall_app in Hg as [_ H]. inversion H; contradiction.
Qed.

Lemma run_split {sep : N -> Prop} (Hd : forall c, sep c \/ ~ sep c) p p' (l l' : list N) :
  Forall (fun c => ~ sep c) p -> Forall (fun c => ~ sep c) p' ->
  match l with [] => True | c :: _ => sep c end -> match l' with [] => True | c :: _ => sep c end ->
  p ++ l = p' ++ l' -> p = p' /\ l = l'.
Proof.
  intros Hp. revert p'. induction Hp as [|a p Ha Hp IH]; intros [|b p'] Hp' Hl Hl' E; cbn in E.
  - auto.
  - destruct l; [discriminate|]. injection E as -> _. inversion Hp'; contradiction.
  - destruct l'; [discriminate|]. injection E as -> _. contradiction.
  - injection E as -> E. inversion Hp' as [|? ? Hb Hp'']; subst.
    destruct (IH p' Hp'' Hl Hl' E) as (-> & ->). auto.
Qed.

Lemma runs_unique (sep : N -> Prop) (Hd : forall c, sep c \/ ~ sep c) s ps : runs sep s ps -> forall ps', runs sep s ps' -> ps = ps'.
Proof.
  assert (Hform : forall s ps, runs sep s ps ->
     (ps = [] /\ Forall sep s) \/
     exists g x p rest ps', s = g ++ x :: p ++ rest /\ Forall sep g /\ ~ sep x /\ Forall (fun c => ~ sep c) p /\
        ps = (x :: p) :: ps' /\ match rest with [] => ps' = [] | c :: _ => sep c /\ runs sep rest ps' end).
  { intros s0 ps0 H. inversion H as [g Hg|g p Hg Hne Hp|g p c s1 ps1 Hg Hne Hp Hc HR]; subst.
    - left; auto.
    - right. destruct p as [|x p]; [congruence|]. inversion Hp; subst.
      exists g, x, p, [], []. rewrite app_nil_r. repeat split; auto.
    - right. destruct p as [|x p]; [congruence|]. inversion Hp; subst.
      exists g, x, p, (c :: s1), ps1. repeat split; auto. }
  intros H. induction H as [g Hg|g p Hg Hne Hp|g p c s ps Hg Hne Hp Hc HR IH]; intros ps' H'.
  - apply Hform in H' as [[-> _]|(g' & x & p & rest & ps1 & E & _ & Hx & _)]; auto.
    exfalso. eapply seps_no_nonsep; eauto.
  - destruct p as [|y p]; [congruence|]. inversion Hp as [|? ? Hy Hp']; subst.
    apply Hform in H' as [[-> Hs]|(g' & x & p1 & rest & ps1 & E & Hg' & Hx & Hp1 & -> & Hrest)].
    + exfalso. apply Forall_app in Hs as [_ Hs]. inversion Hs; contradiction.
    + destruct (head_nonsep g g' y x _ _ Hg Hg' Hy Hx E) as (-> & -> & E2).
      rewrite <- (app_nil_r p) in E2.
      destruct (run_split Hd p p1 [] rest Hp' Hp1 I) as [-> E3]; auto.
      { destruct rest; auto. tauto. }
      subst rest. rewrite Hrest. reflexivity.
  - destruct p as [|y p]; [congruence|]. inversion Hp as [|? ? Hy Hp']; subst.
    apply Hform in H' as [[-> Hs]|(g' & x & p1 & rest & ps1 & E & Hg' & Hx & Hp1 & -> & Hrest)].
    + exfalso. apply Forall_app in Hs as [_ Hs]. inversion Hs; contradiction.
    + cbn [app] in E. destruct (head_nonsep g g' y x _ _ Hg Hg' Hy Hx E) as (-> & -> & E2).
      destruct (run_split Hd p p1 (c :: s) rest Hp' Hp1) as [-> E3]; auto.
      { destruct rest; auto. tauto. }
      subst rest. destruct Hrest as [_ HR']. f_equal. apply IH; auto.
Qed.

Lemma runs_in_unique seps s ps ps' : runs (fun c => In c seps) s ps -> runs (fun c => In c seps) s ps' -> ps = ps'.
Proof.
  intros H H'. eapply runs_unique; eauto. intros c.
  destruct (in_dec N.eq_dec c seps); auto.
Qed.

(** ** Trim *)
Lemma trim_left_spec f s : exists a, s = a ++ trim_left f s /\ Forall (fun c => f c = true) a /\
  (forall c t, trim_left f s = c :: t -> f c = false).
Proof.
  induction s as [|c t IH]; cbn [trim_left].
  - exists []. repeat split; auto. discriminate.
  - destruct (f c) eqn:E.
    + destruct IH as (a & E1 & E2 & E3). exists (c :: a). cbn. rewrite <- E1. repeat split; auto.
    + exists []. repeat split; auto. intros d u H. injection H as -> ->. auto.
Qed.

Lemma trim_ok s mask : trimmed (fun c => In c mask) s (trim s mask).
Proof.
  unfold trim. set (f := fun c => existsb (N.eqb c) mask).
  assert (Hf : forall c, f c = true <-> In c mask) by (intros c; apply (is_sep_iff mask c)).
  assert (Hf0 : forall c, f c = false -> ~ In c mask) by (intros c H1 H2; apply Hf in H2; congruence).
  destruct (trim_left_spec f s) as (a & Ea & Ha & Hla).
  set (t := trim_left f s) in *.
  destruct (trim_left_spec f (rev t)) as (b & Eb & Hb & Hlb).
  set (u := trim_left f (rev t)) in *.
  assert (Et : t = rev u ++ rev b).
  { rewrite <- rev_app_distr, <- Eb, rev_involutive. reflexivity. }
  exists a, (rev b). split; [rewrite Ea at 1; rewrite Et; reflexivity|].
  split. { eapply Forall_impl; [|exact Ha]. intros; now apply Hf. }
  split. { apply Forall_rev. eapply Forall_impl; [|exact Hb]. intros; now apply Hf. }
  split.
  - intros c v E. apply Hf0. rewrite E in Et. cbn in Et. exact (Hla _ _ Et).
  - intros c v E. apply Hf0. apply (Hlb c (rev v)). rewrite <- (rev_involutive u), E, rev_app_distr. reflexivity.
Qed.

(** ** Case mapping *)
Lemma upper_spec s : upper s = map (fun c => if (97 <=? c)%N && (c <=? 122)%N then (c - 32)%N else c) s.
Proof.
  unfold upper. apply map_ext. intros c. unfold upper_tbl.
  destruct ((97 <=? c)%N && (c <=? 122)%N) eqn:E; [|reflexivity].
  destruct (N.eqb_spec (c - 32) 0); [lia|reflexivity].
Qed.
Lemma lower_spec s : lower s = map (fun c => if (65 <=? c)%N && (c <=? 90)%N then (c + 32)%N else c) s.
Proof.
  unfold lower. apply map_ext. intros c. unfold lower_tbl.
  destruct ((65 <=? c)%N && (c <=? 90)%N) eqn:E; [|reflexivity].
  destruct (N.eqb_spec (c + 32) 0); [lia|reflexivity].
Qed.

(** ** Comparison *)
Lemma memcmp_eq a : forall b, length a = length b -> (memcmp a b = 0%Z <-> a = b).
Proof.
  induction a as [|x a IH]; intros [|y b] H; cbn in *; try discriminate; [tauto|].
  destruct (N.eqb_spec x y) as [->|Hne].
  - rewrite IH by congruence. split; congruence.
  - destruct (x <? y)%N; split; congruence || discriminate.
Qed.

Lemma to_s32_0 z : (-(2^32) < z < 2^32)%Z -> (to_s32 z = 0%Z <-> z = 0%Z).
Proof.
  intros H. unfold to_s32. change (2^32)%Z with 4294967296%Z in *. change (2^31)%Z with 2147483648%Z.
  destruct (z mod 4294967296 <? 2147483648)%Z eqn:E; lia.
Qed.

Lemma word_range b0 b1 b2 b3 : is_byte b0 -> is_byte b1 -> is_byte b2 -> is_byte b3 ->
  (0 <= word b0 b1 b2 b3 < 2^32)%Z.
Proof. unfold is_byte, word. change (2^32)%Z with 4294967296%Z. lia. Qed.

Lemma word_inj a0 a1 a2 a3 b0 b1 b2 b3 : Forall is_byte [a0;a1;a2;a3;b0;b1;b2;b3] ->
  word a0 a1 a2 a3 = word b0 b1 b2 b3 -> a0 = b0 /\ a1 = b1 /\ a2 = b2 /\ a3 = b3.
Proof.
  intros H E. repeat match goal with H : Forall _ (_ :: _) |- _ => inversion H; clear H; subst end.
  unfold is_byte, word in *. lia.
Qed.

Definition quad_ind (P : list N -> Prop) (H0 : P []) (H1 : forall a, P [a]) (H2 : forall a b, P [a; b])
  (H3 : forall a b c, P [a;b;c]) (H4 : forall a b c d t, P t -> P (a :: b :: c :: d :: t)) : forall l, P l :=
  fix F l := match l with
  | [] => H0 | [a] => H1 a | [a; b] => H2 a b | [a;b;c] => H3 a b c
  | a :: b :: c :: d :: t => H4 a b c d t (F t) end.

Lemma mod4_S4 (n : nat) : S (S (S (S n))) mod 4 = n mod 4.
Proof. replace (S (S (S (S n)))) with (n + 1 * 4) by lia. apply Nat.mod_add. lia. Qed.

Lemma wordcmp_eq : forall a b, bytes a -> bytes b -> length a = length b -> length a mod 4 = 0 ->
  (wordcmp a b = 0%Z <-> a = b).
Proof.
  refine (quad_ind _ _ _ _ _ _).
  - intros [|] _ _ H _; [tauto|discriminate].
  - intros; discriminate.
  - intros; discriminate.
  - intros; discriminate.
  - intros a0 a1 a2 a3 t IH b Ha Hb Hl Hm. destruct b as [|b0 [|b1 [|b2 [|b3 u]]]]; try discriminate.
    assert (Ha' := Ha). assert (Hb' := Hb).
    repeat match goal with H : bytes (_ :: _) |- _ => inversion H; clear H; subst
                     | H : Forall is_byte (_ :: _) |- _ => inversion H; clear H; subst end.
    cbn [wordcmp]. cbn [length] in Hl, Hm. rewrite mod4_S4 in Hm.
    pose proof (word_range a0 a1 a2 a3 ltac:(assumption) ltac:(assumption) ltac:(assumption) ltac:(assumption)) as W1.
    pose proof (word_range b0 b1 b2 b3 ltac:(assumption) ltac:(assumption) ltac:(assumption) ltac:(assumption)) as W2.
    destruct (Z.eqb_spec (to_s32 (word a0 a1 a2 a3 - word b0 b1 b2 b3)) 0) as [E|E].
    + apply (proj1 (to_s32_0 (word a0 a1 a2 a3 - word b0 b1 b2 b3)%Z ltac:(lia))) in E.
      destruct (word_inj a0 a1 a2 a3 b0 b1 b2 b3) as (-> & -> & -> & ->); [repeat constructor; assumption|lia|].
      rewrite IH by (auto; congruence). split; congruence.
    + split; [contradiction|]. intros Heq. injection Heq as -> -> -> -> _. exfalso. apply E.
      rewrite Z.sub_diag. reflexivity.
Qed.

Lemma strcmp_eq s1 s2 : bytes (s_bytes s1) -> bytes (s_bytes s2) -> s_addr s1 <> s_addr s2 ->
  (mstrcmp s1 s2 = 0%Z <-> s_bytes s1 = s_bytes s2).
Proof.
  intros H1 H2 Hne. unfold mstrcmp. destruct (N.eqb_spec (s_addr s1) (s_addr s2)); [contradiction|].
  destruct (Nat.ltb_spec (length (s_bytes s2)) (length (s_bytes s1))).
  { split; [discriminate|]. intros E. rewrite E in *. lia. }
  destruct (Nat.ltb_spec (length (s_bytes s1)) (length (s_bytes s2))).
  { split; [discriminate|]. intros E. rewrite E in *. lia. }
  destruct ((280 <? length (s_bytes s1)) || negb (length (s_bytes s1) mod 4 =? 0)) eqn:E.
  - apply memcmp_eq. lia.
  - apply orb_false_iff in E as [_ E]. apply negb_false_iff in E. apply Nat.eqb_eq in E.
    apply wordcmp_eq; auto; lia.
Qed.

(** On ASCII strings (all bytes below 128) the comparison is a total order. *)
Definition ascii (l : list N) : Prop := Forall (fun c => (c < 128)%N) l.

Definition cmpbytes (a b : list N) : Z :=
  if length b <? length a then 1%Z
  else if length a <? length b then (-1)%Z
  else if (280 <? length a) || negb (length a mod 4 =? 0) then memcmp a b
  else wordcmp a b.

Lemma memcmp_antisym a : forall b, (memcmp a b = - memcmp b a)%Z.
Proof.
  induction a as [|x a IH]; intros [|y b]; cbn; auto.
  destruct (N.eqb_spec x y) as [->|Hne]; [rewrite N.eqb_refl; auto|].
  destruct (N.eqb_spec y x); [congruence|].
  destruct (N.ltb_spec x y), (N.ltb_spec y x); auto; lia.
Qed.

Lemma memcmp_range a : forall b, (memcmp a b = 0 \/ memcmp a b = 1 \/ memcmp a b = -1)%Z.
Proof.
  induction a as [|x a IH]; intros [|y b]; cbn; auto.
  destruct (x =? y)%N; auto. destruct (x <? y)%N; auto.
Qed.

Lemma memcmp_trans a : forall b c, length a = length b -> length b = length c ->
  (memcmp a b < 0 -> memcmp b c < 0 -> memcmp a c < 0)%Z.
Proof.
  induction a as [|x a IH]; intros [|y b] [|z c] Hl Hm; cbn in *; try discriminate; try lia.
  destruct (N.eqb_spec x y) as [->|H1].
  - destruct (N.eqb_spec y z) as [->|H2].
    + apply IH; congruence.
    + auto.
  - destruct (N.eqb_spec y z) as [->|H2].
    + destruct (N.eqb_spec x z); [congruence|]. auto.
    + intros Ha Hb. destruct (N.ltb_spec x y); [|lia]. destruct (N.ltb_spec y z); [|lia].
      destruct (N.eqb_spec x z); [lia|]. destruct (N.ltb_spec x z); lia.
Qed.

Lemma word_ascii b0 b1 b2 b3 : (b0 < 128)%N -> (b1 < 128)%N -> (b2 < 128)%N -> (b3 < 128)%N ->
  (0 <= word b0 b1 b2 b3 < 2147483648)%Z.
Proof. unfold word. lia. Qed.

Lemma to_s32_small z : (-2147483648 < z < 2147483648)%Z -> to_s32 z = z.
Proof.
  intros H. unfold to_s32. change (2^32)%Z with 4294967296%Z in *. change (2^31)%Z with 2147483648%Z.
  destruct (z mod 4294967296 <? 2147483648)%Z eqn:E; lia.
Qed.

Ltac inv_ascii := repeat match goal with H : ascii (_ :: _) |- _ => inversion H; clear H; subst
                     | H : Forall (fun c => (c < 128)%N) (_ :: _) |- _ => inversion H; clear H; subst end.

Lemma wordcmp_sign_sub a0 a1 a2 a3 a b0 b1 b2 b3 b :
  ascii [a0;a1;a2;a3] -> ascii [b0;b1;b2;b3] ->
  wordcmp (a0 :: a1 :: a2 :: a3 :: a) (b0 :: b1 :: b2 :: b3 :: b) =
  (if Z.eqb (word a0 a1 a2 a3) (word b0 b1 b2 b3) then wordcmp a b else word a0 a1 a2 a3 - word b0 b1 b2 b3)%Z.
Proof.
  intros Ha Hb. inv_ascii.
  pose proof (word_ascii a0 a1 a2 a3 ltac:(assumption) ltac:(assumption) ltac:(assumption) ltac:(assumption)).
  pose proof (word_ascii b0 b1 b2 b3 ltac:(assumption) ltac:(assumption) ltac:(assumption) ltac:(assumption)).
  cbn [wordcmp]. rewrite to_s32_small by lia.
  destruct (Z.eqb_spec (word a0 a1 a2 a3 - word b0 b1 b2 b3) 0), (Z.eqb_spec (word a0 a1 a2 a3) (word b0 b1 b2 b3)); lia.
Qed.

Lemma ascii4 a0 a1 a2 a3 t : ascii (a0 :: a1 :: a2 :: a3 :: t) -> ascii [a0;a1;a2;a3] /\ ascii t.
Proof. intros H. inv_ascii. split; [repeat constructor; assumption|assumption]. Qed.

Lemma wordcmp_antisym : forall a b, ascii a -> ascii b -> length a = length b -> (wordcmp a b = - wordcmp b a)%Z.
Proof.
  refine (quad_ind _ _ _ _ _ _).
  - intros [|] ? ? H; [reflexivity|discriminate].
  - intros a [|b [|]] ? ? H; try discriminate; reflexivity.
  - intros a b [|? [|? [|]]] ? ? H; try discriminate; reflexivity.
  - intros a b c [|? [|? [|? [|]]]] ? ? H; try discriminate; reflexivity.
  - intros a0 a1 a2 a3 t IH [|b0 [|b1 [|b2 [|b3 u]]]] Ha Hb Hl; try discriminate.
    apply ascii4 in Ha as [Ha Ht]. apply ascii4 in Hb as [Hb Hu].
    rewrite !wordcmp_sign_sub by auto. cbn [length] in Hl.
    rewrite (Z.eqb_sym (word b0 b1 b2 b3)).
    destruct (Z.eqb_spec (word a0 a1 a2 a3) (word b0 b1 b2 b3)); [apply IH; auto; congruence|lia].
Qed.

Lemma wordcmp_trans : forall a b c, ascii a -> ascii b -> ascii c -> length a = length b -> length b = length c ->
  (wordcmp a b < 0 -> wordcmp b c < 0 -> wordcmp a c < 0)%Z.
Proof.
  refine (quad_ind _ _ _ _ _ _).
  - intros b c _ _ _ H1 H2. destruct b; [|discriminate]. cbn. lia.
  - intros a b c _ _ _ H1 H2. destruct b as [|? [|]]; try discriminate.
  - intros a a' b c _ _ _ H1 H2. destruct b as [|? [|? [|]]]; try discriminate.
  - intros a a' a'' b c _ _ _ H1 H2. destruct b as [|? [|? [|? [|]]]]; try discriminate.
  - intros a0 a1 a2 a3 t IH [|b0 [|b1 [|b2 [|b3 u]]]] c Ha Hb Hc Hl Hm; try discriminate.
    destruct c as [|c0 [|c1 [|c2 [|c3 v]]]]; try discriminate.
    apply ascii4 in Ha as [Ha Ht]. apply ascii4 in Hb as [Hb Hu]. apply ascii4 in Hc as [Hc Hv].
    rewrite !wordcmp_sign_sub by auto. cbn [length] in Hl, Hm.
    specialize (IH u v Ht Hu Hv ltac:(congruence) ltac:(congruence)).
    destruct (Z.eqb_spec (word a0 a1 a2 a3) (word b0 b1 b2 b3)), (Z.eqb_spec (word b0 b1 b2 b3) (word c0 c1 c2 c3)),
      (Z.eqb_spec (word a0 a1 a2 a3) (word c0 c1 c2 c3)); intros; try lia; auto.
Qed.

Lemma ascii_bytes a : ascii a -> bytes a.
Proof. apply Forall_impl. unfold is_byte. intros; lia. Qed.

Lemma cmpbytes_antisym a b : ascii a -> ascii b -> (cmpbytes a b = - cmpbytes b a)%Z.
Proof.
  intros Ha Hb. unfold cmpbytes.
  destruct (Nat.ltb_spec (length b) (length a)), (Nat.ltb_spec (length a) (length b)); try lia.
  assert (E : length a = length b) by lia. rewrite E.
  destruct ((280 <? length b) || negb (length b mod 4 =? 0)); [apply memcmp_antisym|apply wordcmp_antisym; auto].
Qed.

Lemma cmpbytes_trans a b c : ascii a -> ascii b -> ascii c ->
  (cmpbytes a b < 0 -> cmpbytes b c < 0 -> cmpbytes a c < 0)%Z.
Proof.
  intros Ha Hb Hc. unfold cmpbytes.
  destruct (Nat.ltb_spec (length b) (length a)); [lia|].
  destruct (Nat.ltb_spec (length c) (length b)); [lia|].
  destruct (Nat.ltb_spec (length a) (length b)).
  - destruct (Nat.ltb_spec (length c) (length a)); [lia|].
    destruct (Nat.ltb_spec (length a) (length c)); [lia|lia].
  - assert (E : length a = length b) by lia. rewrite E.
    destruct (Nat.ltb_spec (length c) (length b)); [lia|].
    destruct (Nat.ltb_spec (length b) (length c)); [lia|].
    destruct ((280 <? length b) || negb (length b mod 4 =? 0)).
    + apply memcmp_trans; lia.
    + apply wordcmp_trans; auto; lia.
Qed.

Lemma strcmp_cmpbytes s1 s2 : s_addr s1 <> s_addr s2 -> mstrcmp s1 s2 = cmpbytes (s_bytes s1) (s_bytes s2).
Proof. intros H. unfold mstrcmp. destruct (N.eqb_spec (s_addr s1) (s_addr s2)); [contradiction|reflexivity]. Qed.

(** The sequence comparison on non-empty strings is lexicographic order. *)
Lemma seqcmp_lex a b : a <> [] -> b <> [] -> (mstrseqcmp a b < 0)%Z <-> lex_lt a b.
Proof.
  intros Ha Hb.
  assert (G : forall a b, (memcmp a b < 0)%Z \/ (memcmp a b = 0%Z /\ length a < length b) <-> lex_lt a b).
  { clear. induction a as [|x a IH]; intros [|y b]; cbn [memcmp].
    - cbn. split; [lia|]. intros H. inversion H.
    - cbn. split; [constructor|]. right. split; auto; lia.
    - cbn. split; [lia|]. intros H. inversion H.
    - destruct (N.eqb_spec x y) as [->|Hne].
      + split.
        * intros H. apply lex_tail. apply IH. cbn in H. destruct H; [auto|right; lia].
        * intros H. inversion H; subst; [lia|]. apply IH in H1. cbn. destruct H1; [auto|right; lia].
      + destruct (N.ltb_spec x y).
        * split; [intros _; apply lex_head; auto|left; lia].
        * split; [intros [?|[? _]]; lia|]. intros H1. inversion H1; subst; [lia|congruence]. }
  unfold mstrseqcmp. rewrite <- G.
  pose proof (memcmp_range a b) as R.
  destruct a as [|x a]; [congruence|]. destruct b as [|y b]; [congruence|].
  set (l1 := length (x :: a)) in *. set (l2 := length (y :: b)) in *.
  assert (0 < l1 /\ 0 < l2) by (unfold l1, l2; cbn; lia).
  destruct (Nat.ltb_spec l2 l1); [|destruct (Nat.ltb_spec l1 l2)].
  - destruct (Nat.eqb_spec l2 0); [lia|]. destruct (Z.eqb_spec (memcmp (x :: a) (y :: b)) 0); lia.
  - destruct (Nat.eqb_spec l1 0); [lia|]. destruct (Z.eqb_spec (memcmp (x :: a) (y :: b)) 0); lia.
  - destruct (Nat.eqb_spec l1 0); [lia|]. lia.
Qed.

Lemma seqcmp_eq a b : mstrseqcmp a b = 0%Z <-> a = b.
Proof.
  unfold mstrseqcmp.
  destruct (Nat.ltb_spec (length b) (length a)).
  { destruct (length b =? 0); [|destruct (Z.eqb_spec (memcmp a b) 0)]; split; try congruence; intros Hab; subst; try congruence; lia. }
  destruct (Nat.ltb_spec (length a) (length b)).
  { destruct (length a =? 0); [|destruct (Z.eqb_spec (memcmp a b) 0)]; split; try congruence; intros Hab; subst; try congruence; lia. }
  assert (E : length a = length b) by lia.
  destruct (Nat.eqb_spec (length a) 0).
  - destruct a; [|discriminate]. destruct b; [|discriminate]. tauto.
  - apply memcmp_eq; auto.
Qed.

(** ** strstr *)
Lemma prefixb_iff p : forall l, prefixb p l = true <-> exists b, l = p ++ b.
Proof.
  induction p as [|x p IH]; intros l; cbn.
  - split; [exists l; auto|auto].
  - destruct l as [|y l]. { split; [discriminate|]. intros (b & H). discriminate. }
    rewrite andb_true_iff, IH, N.eqb_eq. split.
    + intros (-> & b & ->). exists b; auto.
    + intros (b & H). injection H as -> ->. split; [auto|]. exists b; auto.
Qed.

Lemma occurs_at_0 t p : occurs_at t p 0 <-> exists b, t = p ++ b.
Proof.
  split.
  - intros (a & b & -> & H). destruct a; [|discriminate]. exists b; auto.
  - intros (b & ->). exists [], b. auto.
Qed.
Lemma occurs_at_S c t p i : occurs_at (c :: t) p (S i) <-> occurs_at t p i.
Proof.
  split.
  - intros (a & b & H & Hl). destruct a as [|d a]; [discriminate|]. cbn in *. injection H as -> ->.
    exists a, b. auto.
  - intros (a & b & -> & Hl). exists (c :: a), b. cbn. auto.
Qed.

Lemma strstr_from_ok t p : forall i, match strstr_from i t p with
  | Some r => exists j, r = i + j /\ first_occurrence t p j
  | None => forall j, ~ occurs_at t p j end.
Proof.
  induction t as [|c t IH]; intros i; cbn [strstr_from]; destruct (prefixb p _) eqn:E.
  - exists 0. split; [lia|]. split; [|lia]. apply occurs_at_0. now apply prefixb_iff.
  - intros [|j] H.
    + apply occurs_at_0, prefixb_iff in H. congruence.
    + destruct H as (a & b & H & Hl). destruct a; discriminate.
  - exists 0. split; [lia|]. split; [|lia]. apply occurs_at_0. now apply prefixb_iff.
  - assert (H0 : ~ occurs_at (c :: t) p 0).
    { intros H. apply occurs_at_0, prefixb_iff in H. congruence. }
    specialize (IH (S i)). destruct (strstr_from (S i) t p) as [r|].
    + destruct IH as (j & -> & H1 & H2). exists (S j). split; [lia|]. split; [exact (proj2 (occurs_at_S c t p j) H1)|].
      intros [|k] Hk; [contradiction|]. apply (proj1 (occurs_at_S c t p k)) in Hk. specialize (H2 k Hk). lia.
    + intros [|j] H; [contradiction|]. apply (proj1 (occurs_at_S c t p j)) in H. exact (IH j H).
Qed.

Lemma cstr_app l t : Forall (fun c => c <> 0%N) l -> cstr (l ++ 0%N :: t) = l.
Proof.
  induction 1 as [|c l Hc Hl IH]; cbn; auto.
  destruct (N.eqb_spec c 0); [contradiction|]. f_equal; auto.
Qed.

Lemma strstr_ok text pat : Forall (fun c => c <> 0%N) text -> Forall (fun c => c <> 0%N) pat ->
  match mstrstr (mkV (text ++ [0%N]) 0 (length text)) (mkV (pat ++ [0%N]) 0 (length pat)) with
  | Some i => first_occurrence text pat i
  | None => forall j, ~ occurs_at text pat j end.
Proof.
  intros Ht Hp. unfold mstrstr. cbn [v_mem v_off skipn]. rewrite !cstr_app by auto.
  pose proof (strstr_from_ok text pat 0) as H. destruct (strstr_from 0 text pat) as [r|]; auto.
  destruct H as (j & -> & H). exact H.
Qed.

Lemma strcmp_order s1 s2 s3 : ascii (s_bytes s1) -> ascii (s_bytes s2) -> ascii (s_bytes s3) ->
    s_addr s1 <> s_addr s2 -> s_addr s2 <> s_addr s3 -> s_addr s1 <> s_addr s3 ->
    (mstrcmp s1 s2 < 0 <-> 0 < mstrcmp s2 s1)%Z /\
    (mstrcmp s1 s2 < 0 -> mstrcmp s2 s3 < 0 -> mstrcmp s1 s3 < 0)%Z.
Proof.
  intros. rewrite !strcmp_cmpbytes by auto. split.
  - rewrite cmpbytes_antisym by auto. lia.
  - apply cmpbytes_trans; auto.
Qed.
