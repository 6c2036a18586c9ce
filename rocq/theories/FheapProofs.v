Require Import List Arith NArith Bool Permutation Sorted Lia.
Require Import ZifyBool ZifyNat ZifyN.
Require Import Verif.Base Verif.FheapModel Verif.FheapSpec.
Import ListNotations.
Open Scope N_scope.

(** * Rings *)
Definition drop (a : N) (l : list N) : list N := filter (fun b => negb (b =? a)) l.
Lemma drop_in a b l : In b (drop a l) <-> In b l /\ b <> a.
Proof. unfold drop. rewrite filter_In. destruct (N.eqb_spec b a); cbn; intuition congruence. Qed.
Lemma drop_none a l : ~ In a l -> drop a l = l.
Proof.
  intros H. unfold drop. induction l as [| b r IH]; [reflexivity|]. cbn [filter]. destruct (N.eqb_spec b a) as [-> | Hn]; [destruct H; left; reflexivity|].
  cbn [negb]. f_equal. apply IH. intros X; apply H; right; exact X.
Qed.
Lemma drop_app a l1 l2 : drop a (l1 ++ l2) = drop a l1 ++ drop a l2. Proof. apply filter_app. Qed.
Lemma drop_mid a l1 l2 : NoDup (l1 ++ a :: l2) -> drop a (l1 ++ a :: l2) = l1 ++ l2.
Proof.
  intros H. apply NoDup_remove_2 in H. rewrite drop_app. unfold drop at 2. cbn [filter]. rewrite N.eqb_refl. cbn [negb].
  change (drop a l1 ++ drop a l2 = l1 ++ l2). rewrite !drop_none; [reflexivity | |]; intros X; apply H, in_or_app; auto.
Qed.
Lemma drop_nodup a l : NoDup l -> NoDup (drop a l). Proof. apply NoDup_filter. Qed.
Lemma drop_length a l : NoDup l -> In a l -> S (length (drop a l)) = length l.
Proof.
  intros D H. apply in_split in H. destruct H as (l1 & l2 & ->). rewrite drop_mid by exact D. rewrite !app_length. cbn [length]. lia.
Qed.
Lemma ring_del_ok l a : In a l -> ring_del l a = Some (drop a l).
Proof. intros H. unfold ring_del. replace (existsb (N.eqb a) l) with true; [reflexivity|]. symmetry. apply existsb_exists. exists a. split; [exact H | apply N.eqb_refl]. Qed.
Lemma after_ok l1 a l2 : ~ In a l1 -> after (l1 ++ a :: l2) a = Some (hd_error l2).
Proof.
  induction l1 as [| b r IH]; intros H; cbn [app after].
  - rewrite N.eqb_refl. reflexivity.
  - destruct (N.eqb_spec b a) as [-> | Hn]; [destruct H; left; reflexivity|]. apply IH. intros X; apply H; right; exact X.
Qed.
Lemma drop_nth a l i c : NoDup l -> nth_error (drop a l) i = Some c -> exists j, (i <= j)%nat /\ nth_error l j = Some c.
Proof.
  intros _. revert i; induction l as [| b r IH]; intros i H; [destruct i; discriminate|]. unfold drop in H. cbn [filter] in H. destruct (negb (b =? a)).
  - destruct i as [| i]; [exists O; auto|]. destruct (IH i H) as (j & J1 & J2). exists (S j). split; [lia | exact J2].
  - destruct (IH i H) as (j & J1 & J2). exists (S j). split; [lia | exact J2].
Qed.

(** * Fibonacci numbers *)
Fixpoint gp (d : nat) : N * N := match d with O => (1, 2) | S d => let '(a, b) := gp d in (b, a + b) end.
Definition g (d : nat) : N := fst (gp d).
Lemma gp_eq d : gp d = (g d, g (S d)).
Proof. unfold g. cbn [gp]. destruct (gp d); reflexivity. Qed.
Lemma g_step d : g (S (S d)) = g d + g (S d).
Proof. unfold g at 1. cbn [gp]. rewrite gp_eq. reflexivity. Qed.
Lemma g_pos d : 1 <= g d /\ g d <= g (S d).
Proof.
  induction d as [| d [IH1 IH2]]; [split; vm_compute; discriminate|]. rewrite g_step. lia.
Qed.
Lemma g_mono d e : (d <= e)%nat -> g d <= g e.
Proof. induction 1 as [| e H IH]; [lia|]. pose proof (g_pos e). lia. Qed.
(** the sum of [f (i - 1)] for [i] below [k] *)
Fixpoint gsum (k : nat) : N := match k with O => 1 | S k => gsum k + g (k - 1) end.
Lemma gsum_g k : gsum k = g k.
Proof.
  assert (H : gsum k = g k /\ gsum (S k) = g (S k)); [|apply H]. induction k as [| k [IH1 IH2]]; [split; reflexivity|]. split; [exact IH2|].
  change (gsum (S (S k))) with (gsum (S k) + g (S k - 1)). rewrite IH2. replace (S k - 1)%nat with k by lia. rewrite g_step. lia.
Qed.

Section Proofs.
Variable K : Type.
Variable lt : K -> K -> bool.
Hypothesis Hlt : strict_weak lt.
Notation node := (node K).
Notation memory := (N -> option node).

Lemma lirr a : lt a a = false. Proof. apply (sw_irrefl lt Hlt). Qed.
Lemma lasym a b : lt a b = true -> lt b a = false.
Proof. intros H. destruct (lt b a) eqn:E; [|reflexivity]. pose proof (sw_trans lt Hlt _ _ _ H E) as X. rewrite lirr in X. discriminate. Qed.
Lemma lle a b c : lt b a = false -> lt c b = false -> lt c a = false.
Proof. intros H1 H2. exact (sw_equiv lt Hlt _ _ _ H2 H1). Qed.

Lemma put_eq (m : memory) a n : put m a n a = Some n. Proof. unfold put. rewrite N.eqb_refl. reflexivity. Qed.
Lemma put_ne (m : memory) a n b : b <> a -> put m a n b = m b. Proof. intros H. unfold put. destruct (N.eqb_spec b a); [contradiction|reflexivity]. Qed.

Definition b2n (b : bool) : N := if b then 1 else 0.
Definition is (e : option N) (c : N) : bool := match e with Some a => c =? a | None => false end.
Record forest (m : memory) (R L : list N) (ex hx : option N) : Prop := mkF {
  f_ndL : NoDup L;
  f_ndR : NoDup R;
  f_def : forall x, In x L -> exists n, m x = Some n;
  f_root : forall x, In x R -> In x L;
  f_iff : forall x n, In x L -> m x = Some n -> (nparent n = None <-> In x R);
  f_par : forall x n y, In x L -> m x = Some n -> nparent n = Some y -> In y L /\ exists ny, m y = Some ny /\ In x (nkids ny);
  f_kid : forall x n c, In x L -> m x = Some n -> In c (nkids n) -> In c L /\ exists nc, m c = Some nc /\ nparent nc = Some x;
  f_kids : forall x n, In x L -> m x = Some n -> NoDup (nkids n) /\ ndeg n = N.of_nat (length (nkids n));
  f_deg : forall x n i c nc, In x L -> m x = Some n -> nth_error (nkids n) i = Some c -> m c = Some nc ->
            N.of_nat i <= ndeg nc + b2n (nmark nc) + b2n (is ex c);
  f_ord : forall x n y ny, In x L -> m x = Some n -> nparent n = Some y -> m y = Some ny -> is hx x = false -> lt (nkey n) (nkey ny) = false;
  f_rank : exists rank : N -> nat, forall x n y, In x L -> m x = Some n -> nparent n = Some y -> (rank x < rank y)%nat }.

Definition keys_same (m m' : memory) : Prop := forall a, option_map nkey (m' a) = option_map nkey (m a).
Lemma keys_refl m : keys_same m m. Proof. intros a; reflexivity. Qed.
Lemma keys_trans m1 m2 m3 : keys_same m1 m2 -> keys_same m2 m3 -> keys_same m1 m3. Proof. intros H1 H2 a. rewrite H2. apply H1. Qed.
Lemma keys_get m m' a n : keys_same m m' -> m a = Some n -> exists n', m' a = Some n' /\ nkey n' = nkey n.
Proof. intros H E. specialize (H a). rewrite E in H. destruct (m' a) as [n' |]; [|discriminate]. injection H as H. eauto. Qed.
Lemma keys_put (m : memory) a n p : m a = Some n -> nkey p = nkey n -> keys_same m (put m a p).
Proof. intros H E b. unfold put. destruct (N.eqb_spec b a) as [-> |]; [rewrite H; cbn; rewrite E; reflexivity | reflexivity]. Qed.

(** Same memory, same roots in another order. *)
Lemma forest_ext m m' R R' L ex hx : forest m R L ex hx -> (forall a, m' a = m a) -> NoDup R' -> (forall a, In a R' <-> In a R) -> forest m' R' L ex hx.
Proof.
  intros F Hm D HR. constructor; intros; rewrite ?Hm in *; try setoid_rewrite Hm.
  - apply (f_ndL _ _ _ _ _ F).
  - exact D.
  - apply (f_def _ _ _ _ _ F); auto.
  - apply (f_root _ _ _ _ _ F). apply HR; auto.
  - rewrite HR. apply (f_iff _ _ _ _ _ F); auto.
  - eapply (f_par _ _ _ _ _ F); eauto.
  - eapply (f_kid _ _ _ _ _ F); eauto.
  - eapply (f_kids _ _ _ _ _ F); eauto.
  - eapply (f_deg _ _ _ _ _ F); eauto.
  - eapply (f_ord _ _ _ _ _ F); eauto.
  - destruct (f_rank _ _ _ _ _ F) as (rk & Hr). exists rk. intros x n y. rewrite ?Hm. apply Hr.
Qed.

(** * The number of children *)
Fixpoint nodes (f : nat) (m : memory) (x : N) : list N :=
  match f with
  | O => [x]
  | S f => x :: match m x with Some n => flat_map (nodes f m) (nkids n) | None => [] end
  end.
Fixpoint up (m : memory) (j : nat) (u : N) : option N :=
  match j with O => Some u | S j => match m u with Some n => match nparent n with Some y => up m j y | None => None end | None => None end end.
Lemma up_app m i j u : up m (i + j) u = match up m i u with Some v => up m j v | None => None end.
Proof. revert u; induction i as [| i IH]; intros u; [reflexivity|]. cbn [Nat.add up]. destruct (m u) as [n |]; [|reflexivity]. destruct (nparent n); [apply IH | reflexivity]. Qed.
Lemma up_rank m R L rk : forest m R L None None -> (forall x n y, In x L -> m x = Some n -> nparent n = Some y -> (rk x < rk y)%nat) ->
  forall j u v, In u L -> up m j u = Some v -> (rk u + j <= rk v)%nat.
Proof.
  intros F Hr. induction j as [| j IH]; intros u v Hu H; cbn [up] in H; [injection H as ->; lia|].
  destruct (m u) as [n |] eqn:E; [|discriminate]. destruct (nparent n) as [y |] eqn:Ep; [|discriminate].
  destruct (f_par _ _ _ _ _ F u n y Hu E Ep) as (Hy & _). pose proof (IH y v Hy H). pose proof (Hr u n y Hu E Ep). lia.
Qed.
Lemma nodes_up m R L f : forest m R L None None -> forall x u, In x L -> In u (nodes f m x) -> In u L /\ exists j, up m j u = Some x.
Proof.
  intros F. induction f as [| f IH]; intros x u Hx Hu; cbn [nodes] in Hu.
  - destruct Hu as [<- | []]. split; [exact Hx|]. exists O; reflexivity.
  - destruct Hu as [<- | Hu]; [split; [exact Hx | exists O; reflexivity]|].
    destruct (m x) as [n |] eqn:E; [|destruct Hu]. apply in_flat_map in Hu. destruct Hu as (c & Hc & Hu).
    destruct (f_kid _ _ _ _ _ F x n c Hx E Hc) as (Hcl & nc & E1 & E2). destruct (IH c u Hcl Hu) as (Hul & j & Hj). split; [exact Hul|].
    exists (j + 1)%nat. rewrite up_app, Hj. cbn [up]. rewrite E1, E2. reflexivity.
Qed.
Lemma nodup_flat_map {A B} (h : A -> list B) l : NoDup l -> (forall x, In x l -> NoDup (h x)) -> (forall x y z, In x l -> In y l -> In z (h x) -> In z (h y) -> x = y) -> NoDup (flat_map h l).
Proof.
  induction l as [| a r IH]; intros D H1 H2; [constructor|]. inversion D; subst. cbn [flat_map].
  assert (Hr : NoDup (flat_map h r)).
  { apply IH; auto; intros; [apply H1 | eapply H2; eauto]; cbn; auto. }
  assert (Ha : NoDup (h a)) by (apply H1; left; reflexivity).
  assert (Hd : forall z, In z (h a) -> ~ In z (flat_map h r)).
  { intros z Hz Hf. apply in_flat_map in Hf. destruct Hf as (y & Hy & Hzy). assert (a = y) by (eapply H2; eauto; cbn; auto). subst; auto. }
  revert Ha Hd. generalize (h a). intros l Ha Hd. induction l as [| x t IHl]; [exact Hr|]. inversion Ha; subst. cbn [app]. constructor.
  - intros X. apply in_app_or in X. destruct X as [X | X]; [auto | exact (Hd x (or_introl eq_refl) X)].
  - apply IHl; auto. intros y Hy; apply Hd; right; exact Hy.
Qed.
Lemma nodes_nodup m R L f : forest m R L None None -> forall x, In x L -> NoDup (nodes f m x).
Proof.
  intros F. destruct (f_rank _ _ _ _ _ F) as (rk & Hr). pose proof (up_rank m R L rk F Hr) as Hup.
  induction f as [| f IH]; intros x Hx; cbn [nodes]; [repeat constructor; intros []|].
  destruct (m x) as [n |] eqn:E; [|repeat constructor; intros []]. constructor.
  - intros X. apply in_flat_map in X. destruct X as (c & Hc & Hu). destruct (f_kid _ _ _ _ _ F x n c Hx E Hc) as (Hcl & nc & E1 & E2).
    destruct (nodes_up m R L f F c x Hcl Hu) as (_ & j & Hj). pose proof (Hup j x c Hx Hj). pose proof (Hr c nc x Hcl E1 E2). lia.
  - apply nodup_flat_map.
    + apply (f_kids _ _ _ _ _ F x n Hx E).
    + intros c Hc. apply IH. apply (f_kid _ _ _ _ _ F x n c Hx E Hc).
    + intros c1 c2 u Hc1 Hc2 Hu1 Hu2.
      destruct (f_kid _ _ _ _ _ F x n c1 Hx E Hc1) as (L1 & n1 & E1 & P1). destruct (f_kid _ _ _ _ _ F x n c2 Hx E Hc2) as (L2 & n2 & E2 & P2).
      destruct (nodes_up m R L f F c1 u L1 Hu1) as (_ & j1 & J1). destruct (nodes_up m R L f F c2 u L2 Hu2) as (_ & j2 & J2).
      assert (G : forall c d nc nd i k, In c L -> In d L -> m c = Some nc -> nparent nc = Some x -> m d = Some nd -> nparent nd = Some x -> up m i u = Some c -> up m k u = Some d -> (i < k)%nat -> False).
      { intros c d nc nd i k Lc Ld Ec Pc Ed Pd Ui Uk Hik. replace k with (i + S (k - i - 1))%nat in Uk by lia. rewrite up_app, Ui in Uk. cbn [up] in Uk. rewrite Ec, Pc in Uk.
        pose proof (Hup _ x d Hx Uk). pose proof (Hr d nd x Ld Ed Pd). lia. }
      destruct (lt_eq_lt_dec j1 j2) as [[H | H] | H].
      * exfalso. apply (G c1 c2 n1 n2 j1 j2); auto.
      * subst j2. congruence.
      * exfalso. apply (G c2 c1 n2 n1 j2 j1); auto.
Qed.
Lemma flat_length {A B} (h : A -> list B) l b : (forall i x, nth_error l i = Some x -> b i <= N.of_nat (length (h x))) ->
  (fix sum k := match k with O => 0 | S k => sum k + b k end) (length l) <= N.of_nat (length (flat_map h l)).
Proof.
  induction l as [| a r IH] using rev_ind; intros H; [reflexivity|]. rewrite app_length, Nat.add_comm. cbn [length Nat.add]. rewrite flat_map_app, app_length.
  cbn [flat_map]. rewrite app_nil_r.
  assert (X : b (length r) <= N.of_nat (length (h a))).
  { apply H. rewrite nth_error_app2 by lia. rewrite Nat.sub_diag. reflexivity. }
  assert (Y : (fix sum k := match k with O => 0 | S k => sum k + b k end) (length r) <= N.of_nat (length (flat_map h r))).
  { apply IH. intros i x Hi. apply H. rewrite nth_error_app1; [exact Hi|]. apply nth_error_Some. rewrite Hi. discriminate. }
  lia.
Qed.
Lemma gsum_alt k : gsum k = 1 + (fix sum k := match k with O => 0 | S k => sum k + g (k - 1) end) k.
Proof. induction k as [| k IH]; [reflexivity|]. cbn [gsum]. rewrite IH. lia. Qed.
Lemma nodes_many m R L rk : forest m R L None None -> (forall x n y, In x L -> m x = Some n -> nparent n = Some y -> (rk x < rk y)%nat) ->
  forall f x n, In x L -> m x = Some n -> (rk x <= f)%nat -> g (N.to_nat (ndeg n)) <= N.of_nat (length (nodes f m x)).
Proof.
  intros F Hr. induction f as [| f IH]; intros x n Hx E Hf.
  - destruct (nkids n) as [| c t] eqn:Ek.
    + pose proof (proj2 (f_kids _ _ _ _ _ F x n Hx E)) as X. rewrite Ek in X. rewrite X. vm_compute. discriminate.
    + destruct (f_kid _ _ _ _ _ F x n c Hx E) as (Hc & nc & E1 & E2); [rewrite Ek; left; reflexivity|]. pose proof (Hr c nc x Hc E1 E2). lia.
  - cbn [nodes]. rewrite E. rewrite (proj2 (f_kids _ _ _ _ _ F x n Hx E)), Nnat.Nat2N.id. rewrite <- gsum_g, gsum_alt. cbn [length].
    assert (X : (fix sum k := match k with O => 0 | S k => sum k + g (k - 1) end) (length (nkids n)) <= N.of_nat (length (flat_map (nodes f m) (nkids n)))).
    { apply (flat_length (nodes f m) (nkids n) (fun k => g (k - 1))). intros i c Hi.
      destruct (f_kid _ _ _ _ _ F x n c Hx E) as (Hc & nc & E1 & E2); [eapply nth_error_In; eauto|].
      pose proof (f_deg _ _ _ _ _ F x n i c nc Hx E Hi E1) as D. cbn [is b2n] in D. pose proof (Hr c nc x Hc E1 E2).
      apply N.le_trans with (g (N.to_nat (ndeg nc))); [|apply IH; auto; lia]. apply g_mono. unfold b2n in D. destruct (nmark nc); lia. }
    lia.
Qed.
Lemma degree_bound m R L x n : forest m R L None None -> In x L -> m x = Some n -> g (N.to_nat (ndeg n)) <= N.of_nat (length L).
Proof.
  intros F Hx E. destruct (f_rank _ _ _ _ _ F) as (rk & Hr). pose proof (nodes_many m R L rk F Hr (rk x) x n Hx E (le_n _)) as A.
  assert (B : (length (nodes (rk x) m x) <= length L)%nat).
  { apply NoDup_incl_length; [apply (nodes_nodup m R L _ F x Hx)|]. intros u Hu. apply (nodes_up m R L _ F x u Hx Hu). }
  lia.
Qed.
(** The heap may hold this many nodes. *)
Definition limit : N := 44945570212853.
Lemma degree_small m R L x n : forest m R L None None -> N.of_nat (length L) < limit -> In x L -> m x = Some n -> (N.to_nat (ndeg n) < lgn)%nat.
Proof.
  intros F B Hx E. pose proof (degree_bound m R L x n F Hx E) as D. destruct (le_lt_dec lgn (N.to_nat (ndeg n))) as [H | H]; [|exact H].
  exfalso. pose proof (g_mono _ _ H) as G. assert (X : g lgn = limit) by (vm_compute; reflexivity). rewrite X in G. clear - B D G. lia.
Qed.

(** Some root is not above a given node. *)
Lemma root_below m R L x n : forest m R L None None -> In x L -> m x = Some n -> exists r nr, In r R /\ m r = Some nr /\ lt (nkey n) (nkey nr) = false.
Proof.
  intros F. destruct (f_rank _ _ _ _ _ F) as (rk & Hr).
  assert (HM : exists M, forall y, In y L -> (rk y <= M)%nat).
  { generalize L. induction L0 as [| a r [M IH]]; [exists O; intros y []|]. exists (Nat.max (rk a) M). intros y [<- | Hy]; [lia|]. pose proof (IH y Hy); lia. }
  destruct HM as (M & HM). remember (M - rk x)%nat as d eqn:Ed. revert x n Ed. induction d as [d IH] using lt_wf_ind. intros x n Ed Hx E.
  destruct (nparent n) as [y |] eqn:Ep.
  - destruct (f_par _ _ _ _ _ F x n y Hx E Ep) as (Hy & ny & E1 & _). pose proof (Hr x n y Hx E Ep). pose proof (HM y Hy).
    destruct (IH (M - rk y)%nat ltac:(lia) y ny eq_refl Hy E1) as (r & nr & R1 & R2 & R3). exists r, nr. repeat split; auto.
    apply (lle _ (nkey ny)); [exact R3|]. apply (f_ord _ _ _ _ _ F x n y ny); auto.
  - exists x, n. split; [apply (f_iff _ _ _ _ _ F x n Hx E); exact Ep|]. split; [exact E | apply lirr].
Qed.

Lemma kid_not_root m R L ex hx x n c : forest m R L ex hx -> In x L -> m x = Some n -> In c (nkids n) -> ~ In c R.
Proof.
  intros F Hx E Hc HR. destruct (f_kid _ _ _ _ _ F x n c Hx E Hc) as (Hl & nc & E1 & E2). apply (f_iff _ _ _ _ _ F c nc Hl E1) in HR. congruence.
Qed.

(** * Linking a root below another *)
Lemma link_ok m R L x y nx ny : forest m R L None None -> In x R -> In y R -> x <> y -> m x = Some nx -> m y = Some ny -> ndeg nx = ndeg ny ->
  lt (nkey ny) (nkey nx) = false -> ndeg nx + 1 < 2 ^ 64 ->
  exists m', link R m y x = Some (drop y R, m') /\ forest m' (drop y R) L None None /\ keys_same m m' /\
    (exists nx', m' x = Some nx' /\ ndeg nx' = ndeg nx + 1) /\ (forall b, b <> x -> b <> y -> m' b = m b).
Proof.
  intros F Rx Ry Hxy Ex Ey Ed Ho Hb. unfold link. rewrite ring_del_ok by exact Ry. cbn [obind]. rewrite Ex. cbn [obind]. rewrite put_ne by auto. rewrite Ey. cbn [obind].
  eexists. split; [reflexivity|]. unfold w64. rewrite (N.mod_small (ndeg nx + 1)) by exact Hb.
  set (nx' := mkN (nkey nx) (nparent nx) (nkids nx ++ [y]) (ndeg nx + 1) (nmark nx)). set (ny' := mkN (nkey ny) (Some x) (nkids ny) (ndeg ny) false).
  set (m' := put (put m x nx') y ny').
  assert (Hy : m' y = Some ny') by apply put_eq.
  assert (Hx : m' x = Some nx') by (unfold m'; rewrite put_ne by exact Hxy; apply put_eq).
  assert (Hm : forall b, b <> x -> b <> y -> m' b = m b) by (intros b B1 B2; unfold m'; rewrite !put_ne; auto).
  assert (Lx : In x L) by (apply (f_root _ _ _ _ _ F); exact Rx). assert (Ly : In y L) by (apply (f_root _ _ _ _ _ F); exact Ry).
  assert (Px : nparent nx = None) by (apply (f_iff _ _ _ _ _ F x nx Lx Ex); exact Rx).
  assert (Py : nparent ny = None) by (apply (f_iff _ _ _ _ _ F y ny Ly Ey); exact Ry).
  assert (KR : forall a n c, In a L -> m a = Some n -> In c (nkids n) -> c <> x /\ c <> y).
  { intros a n c Ha En Hc. pose proof (kid_not_root m R L _ _ a n c F Ha En Hc). split; intros ->; auto. }
  split; [|split; [|split; [eexists; split; [exact Hx | reflexivity] | exact Hm]]].
  2:{ apply keys_trans with (put m x nx'); [apply (keys_put m x nx); auto|]. apply (keys_put (put m x nx') y ny); [rewrite put_ne; auto | reflexivity]. }
  constructor.
  - apply (f_ndL _ _ _ _ _ F).
  - apply drop_nodup. apply (f_ndR _ _ _ _ _ F).
  - intros a Ha. destruct (N.eq_dec a y) as [-> | Ny]; [eauto|]. destruct (N.eq_dec a x) as [-> | Nx]; [eauto|]. rewrite Hm by auto. apply (f_def _ _ _ _ _ F); auto.
  - intros a Ha. apply drop_in in Ha. apply (f_root _ _ _ _ _ F). apply Ha.
  - intros a n Ha En. rewrite drop_in. destruct (N.eq_dec a y) as [-> | Ny].
    { rewrite Hy in En. injection En as <-. cbn [nparent ny']. split; [discriminate | intros [_ X]; congruence]. }
    destruct (N.eq_dec a x) as [-> | Nx].
    { rewrite Hx in En. injection En as <-. cbn [nparent nx']. rewrite Px. tauto. }
    rewrite Hm in En by auto. pose proof (f_iff _ _ _ _ _ F a n Ha En). tauto.
  - intros a n p Ha En Ep. destruct (N.eq_dec a y) as [-> | Ny].
    { rewrite Hy in En. injection En as <-. cbn [nparent ny'] in Ep. injection Ep as <-. split; [exact Lx|]. exists nx'. split; [exact Hx|]. apply in_or_app. right; left; reflexivity. }
    destruct (N.eq_dec a x) as [-> | Nx].
    { rewrite Hx in En. injection En as <-. cbn [nparent nx'] in Ep. congruence. }
    rewrite Hm in En by auto. destruct (f_par _ _ _ _ _ F a n p Ha En Ep) as (Lp & np & E1 & E2). split; [exact Lp|].
    destruct (N.eq_dec p y) as [-> | Npy]; [exists ny'; split; [exact Hy|]; replace np with ny in E2 by congruence; exact E2|].
    destruct (N.eq_dec p x) as [-> | Npx]; [exists nx'; split; [exact Hx|]; apply in_or_app; left; replace np with nx in E2 by congruence; exact E2|].
    exists np. rewrite Hm by auto. auto.
  - intros a n c Ha En Hc.
    assert (G : forall n0, m a = Some n0 -> In c (nkids n0) -> In c L /\ exists nc, m' c = Some nc /\ nparent nc = Some a).
    { intros n0 E0 Hc0. destruct (KR a n0 c Ha E0 Hc0) as [C1 C2]. rewrite Hm by auto. apply (f_kid _ _ _ _ _ F a n0 c); auto. }
    destruct (N.eq_dec a y) as [-> | Ny]; [rewrite Hy in En; injection En as <-; apply (G ny Ey Hc)|].
    destruct (N.eq_dec a x) as [-> | Nx].
    { rewrite Hx in En. injection En as <-. cbn [nkids nx'] in Hc. apply in_app_or in Hc. destruct Hc as [Hc | [<- | []]]; [apply (G nx Ex Hc)|].
      split; [exact Ly|]. exists ny'. auto. }
    rewrite Hm in En by auto. apply (G n En Hc).
  - intros a n Ha En. destruct (N.eq_dec a y) as [-> | Ny]; [rewrite Hy in En; injection En as <-; apply (f_kids _ _ _ _ _ F y ny Ly Ey)|].
    destruct (N.eq_dec a x) as [-> | Nx].
    { rewrite Hx in En. injection En as <-. destruct (f_kids _ _ _ _ _ F x nx Lx Ex) as [D1 D2]. cbn [nkids ndeg nx']. rewrite app_length. cbn [length]. split; [|rewrite D2; clear; lia].
      apply (Permutation_NoDup (Permutation_cons_append (nkids nx) y)). constructor; [|exact D1]. intros X. apply (KR x nx y Lx Ex X); reflexivity. }
    rewrite Hm in En by auto. apply (f_kids _ _ _ _ _ F a n Ha En).
  - intros a n i c nc Ha En Hi Ec. cbn [is b2n]. rewrite N.add_0_r.
    assert (G : forall n0, m a = Some n0 -> nth_error (nkids n0) i = Some c -> N.of_nat i <= ndeg nc + b2n (nmark nc)).
    { intros n0 E0 Hi0. destruct (KR a n0 c Ha E0 (nth_error_In _ _ Hi0)) as [C1 C2]. rewrite Hm in Ec by auto. pose proof (f_deg _ _ _ _ _ F a n0 i c nc Ha E0 Hi0 Ec) as D.
      cbn [is b2n] in D. rewrite N.add_0_r in D. exact D. }
    destruct (N.eq_dec a y) as [-> | Ny]; [rewrite Hy in En; injection En as <-; apply (G ny Ey Hi)|].
    destruct (N.eq_dec a x) as [-> | Nx].
    { rewrite Hx in En. injection En as <-. cbn [nkids nx'] in Hi. destruct (lt_dec i (length (nkids nx))) as [Hl | Hl].
      - rewrite nth_error_app1 in Hi by exact Hl. apply (G nx Ex Hi).
      - rewrite nth_error_app2 in Hi by lia. destruct (i - length (nkids nx))%nat as [| j] eqn:Ej; [|destruct j; discriminate]. injection Hi as <-.
        rewrite Hy in Ec. injection Ec as <-. cbn [ndeg nmark ny' b2n]. rewrite <- Ed, (proj2 (f_kids _ _ _ _ _ F x nx Lx Ex)). clear - Ej Hl. lia. }
    rewrite Hm in En by auto. apply (G n En Hi).
  - intros a n p np Ha En Ep Enp _. destruct (N.eq_dec a y) as [-> | Ny].
    { rewrite Hy in En. injection En as <-. cbn [nparent ny'] in Ep. injection Ep as <-. rewrite Hx in Enp. injection Enp as <-. exact Ho. }
    destruct (N.eq_dec a x) as [-> | Nx]; [rewrite Hx in En; injection En as <-; cbn [nparent nx'] in Ep; congruence|].
    rewrite Hm in En by auto.
    destruct (N.eq_dec p y) as [-> | Npy]; [rewrite Hy in Enp; injection Enp as <-; apply (f_ord _ _ _ _ _ F a n y ny); auto|].
    destruct (N.eq_dec p x) as [-> | Npx]; [rewrite Hx in Enp; injection Enp as <-; apply (f_ord _ _ _ _ _ F a n x nx); auto|].
    rewrite Hm in Enp by auto. apply (f_ord _ _ _ _ _ F a n p np); auto.
  - destruct (f_rank _ _ _ _ _ F) as (rk & Hr). exists (fun a => if a =? x then Nat.max (rk x) (S (rk y)) else rk a). intros a n p Ha En Ep.
    destruct (N.eq_dec a y) as [-> | Ny].
    { rewrite Hy in En. injection En as <-. cbn [nparent ny'] in Ep. injection Ep as <-. rewrite N.eqb_refl. destruct (N.eqb_spec y x); [congruence|]. lia. }
    destruct (N.eq_dec a x) as [-> | Nx]; [rewrite Hx in En; injection En as <-; cbn [nparent nx'] in Ep; congruence|].
    rewrite Hm in En by auto. pose proof (Hr a n p Ha En Ep). destruct (N.eqb_spec a x); [congruence|]. destruct (N.eqb_spec p x) as [-> |]; lia.
Qed.

(** * Cutting a node off its parent *)
Lemma cut_ok m R L ex hx x y nx : forest m R L ex hx -> In x L -> m x = Some nx -> nparent nx = Some y ->
  (ex = None \/ ex = Some x) -> (hx = None \/ hx = Some x) -> N.of_nat (length L) < 2 ^ 64 ->
  exists m', cut R m x y = Some (R ++ [x], m') /\ forest m' (R ++ [x]) L (Some y) None /\ keys_same m m' /\ In y L.
Proof.
  intros F Lx Ex Px Hex Hhx Hb. destruct (f_par _ _ _ _ _ F x nx y Lx Ex Px) as (Ly & ny & Ey & Ky).
  assert (Hxy : x <> y) by (intros ->; destruct (f_rank _ _ _ _ _ F) as (rk & Hr); pose proof (Hr y nx y Lx Ex Px); lia).
  destruct (f_kids _ _ _ _ _ F y ny Ly Ey) as (Dk & Dg).
  unfold cut. rewrite Ey. cbn [obind]. rewrite ring_del_ok by exact Ky. cbn [obind]. rewrite put_ne by exact Hxy. rewrite Ex. cbn [obind].
  assert (Lk : (length (nkids ny) <= length L)%nat).
  { apply NoDup_incl_length; [exact Dk|]. intros c Hc. apply (f_kid _ _ _ _ _ F y ny c Ly Ey Hc). }
  pose proof (drop_length x (nkids ny) Dk Ky) as Dl.
  replace (w64 (ndeg ny + (2 ^ 64 - 1))) with (N.of_nat (length (drop x (nkids ny)))).
  2:{ unfold w64. rewrite Dg. replace (N.of_nat (length (nkids ny)) + (2 ^ 64 - 1)) with (N.of_nat (length (drop x (nkids ny))) + 1 * 2 ^ 64) by (clear - Dl; lia).
      rewrite N.mod_add by (clear; lia). symmetry. apply N.mod_small. clear - Hb Lk Dl. lia. }
  eexists. split; [reflexivity|].
  set (ny' := mkN (nkey ny) (nparent ny) (drop x (nkids ny)) (N.of_nat (length (drop x (nkids ny)))) (nmark ny)). set (nx' := mkN (nkey nx) None (nkids nx) (ndeg nx) false).
  set (m' := put (put m y ny') x nx').
  assert (Hx : m' x = Some nx') by apply put_eq.
  assert (Hy : m' y = Some ny') by (unfold m'; rewrite put_ne by auto; apply put_eq).
  assert (Hm : forall b, b <> x -> b <> y -> m' b = m b) by (intros b B1 B2; unfold m'; rewrite !put_ne; auto).
  assert (NR : ~ In x R) by (apply (kid_not_root m R L _ _ y ny x F Ly Ey Ky)).
  split; [|split; [|exact Ly]].
  2:{ apply keys_trans with (put m y ny'); [apply (keys_put m y ny); auto|]. apply (keys_put (put m y ny') x nx); [rewrite put_ne; auto | reflexivity]. }
  assert (Hold : forall a n, In a L -> m' a = Some n -> exists n0, m a = Some n0 /\ nkey n0 = nkey n /\ (a = x \/ nparent n0 = nparent n) /\ (forall c, In c (nkids n) -> In c (nkids n0) /\ (c = x -> False)) /\
      (forall i c, nth_error (nkids n) i = Some c -> exists j, (i <= j)%nat /\ nth_error (nkids n0) j = Some c)).
  { assert (Ux : forall a n c, In a L -> m a = Some n -> a <> y -> In c (nkids n) -> c <> x).
    { intros a n c Ha En Na Hc ->. destruct (f_kid _ _ _ _ _ F a n x Ha En Hc) as (_ & n1 & E1 & E2). congruence. }
    intros a n Ha En. destruct (N.eq_dec a x) as [-> | Nx].
    - rewrite Hx in En. injection En as <-. exists nx. repeat split; auto. intros ->. eapply Ux; eauto. intros i c Hi. exists i; auto.
    - destruct (N.eq_dec a y) as [-> | Ny].
      + rewrite Hy in En. injection En as <-. exists ny. cbn [nkey nparent nkids ny']. repeat split; auto.
        * apply drop_in in H. apply H.
        * intros ->. apply drop_in in H. destruct H; auto.
        * intros i c Hi. apply (drop_nth x _ _ _ Dk Hi).
      + rewrite Hm in En by auto. exists n. repeat split; auto. intros ->. eapply Ux; eauto. intros i c Hi. exists i; auto. }
  constructor.
  - apply (f_ndL _ _ _ _ _ F).
  - apply (Permutation_NoDup (Permutation_cons_append R x)). constructor; [exact NR | apply (f_ndR _ _ _ _ _ F)].
  - intros a Ha. destruct (N.eq_dec a x) as [-> | Nx]; [eauto|]. destruct (N.eq_dec a y) as [-> | Ny]; [eauto|]. rewrite Hm by auto. apply (f_def _ _ _ _ _ F); auto.
  - intros a Ha. apply in_app_or in Ha. destruct Ha as [Ha | [<- | []]]; [apply (f_root _ _ _ _ _ F); exact Ha | exact Lx].
  - intros a n Ha En. rewrite in_app_iff. cbn [In]. destruct (N.eq_dec a x) as [-> | Nx].
    { rewrite Hx in En. injection En as <-. cbn [nparent nx']. tauto. }
    destruct (Hold a n Ha En) as (n0 & E0 & _ & [X | X] & _); [contradiction|]. rewrite <- X. pose proof (f_iff _ _ _ _ _ F a n0 Ha E0). intuition congruence.
  - intros a n p Ha En Ep. destruct (N.eq_dec a x) as [-> | Nx]; [rewrite Hx in En; injection En as <-; discriminate|].
    destruct (Hold a n Ha En) as (n0 & E0 & _ & [X | X] & _); [contradiction|]. rewrite <- X in Ep. destruct (f_par _ _ _ _ _ F a n0 p Ha E0 Ep) as (Lp & np & E1 & E2). split; [exact Lp|].
    destruct (N.eq_dec p x) as [-> | Npx]; [exists nx'; split; [exact Hx|]; replace np with nx in E2 by congruence; exact E2|].
    destruct (N.eq_dec p y) as [-> | Npy]; [exists ny'; split; [exact Hy|]; apply drop_in; split; [replace np with ny in E2 by congruence; exact E2 | exact Nx]|].
    exists np. rewrite Hm by auto. auto.
  - intros a n c Ha En Hc. destruct (Hold a n Ha En) as (n0 & E0 & _ & _ & X & _). destruct (X c Hc) as [X1 X2]. destruct (f_kid _ _ _ _ _ F a n0 c Ha E0 X1) as (Lc & nc & E1 & E2).
    split; [exact Lc|]. destruct (N.eq_dec c y) as [-> | Nc]; [exists ny'; split; [exact Hy|]; replace nc with ny in E2 by congruence; exact E2|].
    exists nc. rewrite Hm by auto. auto.
  - intros a n Ha En. destruct (N.eq_dec a x) as [-> | Nx]; [rewrite Hx in En; injection En as <-; apply (f_kids _ _ _ _ _ F x nx Lx Ex)|].
    destruct (N.eq_dec a y) as [-> | Ny]; [rewrite Hy in En; injection En as <-; split; [apply drop_nodup; exact Dk | reflexivity]|].
    rewrite Hm in En by auto. apply (f_kids _ _ _ _ _ F a n Ha En).
  - intros a n i c nc Ha En Hi Ec. destruct (Hold a n Ha En) as (n0 & E0 & _ & _ & X & Y). destruct (X c (nth_error_In _ _ Hi)) as [X1 X2]. destruct (Y i c Hi) as (j & J1 & J2).
    assert (Exc : is ex c = false) by (destruct Hex as [-> | ->]; [reflexivity|]; unfold is; destruct (N.eqb_spec c x); [contradiction | reflexivity]).
    destruct (N.eq_dec c y) as [-> | Nc].
    + rewrite Hy in Ec. injection Ec as <-. pose proof (f_deg _ _ _ _ _ F a n0 j y ny Ha E0 J2 Ey) as D. rewrite Exc in D. cbn [ndeg nmark ny' is]. rewrite N.eqb_refl. cbn [b2n] in *.
      rewrite Dg in D. clear - D J1 Dl. lia.
    + rewrite Hm in Ec by auto. pose proof (f_deg _ _ _ _ _ F a n0 j c nc Ha E0 J2 Ec) as D. rewrite Exc in D. cbn [is]. destruct (N.eqb_spec c y); [contradiction|]. clear - D J1. lia.
  - intros a n p np Ha En Ep Enp _. destruct (N.eq_dec a x) as [-> | Nx]; [rewrite Hx in En; injection En as <-; discriminate|].
    destruct (Hold a n Ha En) as (n0 & E0 & Kn & [X | X] & _); [contradiction|]. rewrite <- X in Ep. destruct (f_par _ _ _ _ _ F a n0 p Ha E0 Ep) as (Lp & _).
    destruct (Hold p np Lp Enp) as (np0 & Ep0 & Kp & _). rewrite <- Kn, <- Kp. apply (f_ord _ _ _ _ _ F a n0 p np0); auto.
    destruct Hhx as [-> | ->]; [reflexivity|]. unfold is. destruct (N.eqb_spec a x); [contradiction | reflexivity].
  - destruct (f_rank _ _ _ _ _ F) as (rk & Hr). exists rk. intros a n p Ha En Ep. destruct (N.eq_dec a x) as [-> | Nx]; [rewrite Hx in En; injection En as <-; discriminate|].
    destruct (Hold a n Ha En) as (n0 & E0 & Kn & [X | X] & _); [contradiction|]. rewrite <- X in Ep. apply (Hr a n0 p Ha E0 Ep).
Qed.

Lemma cascade_ok fuel : forall m R L y, forest m R L (Some y) None -> In y L -> (length L < length R + fuel)%nat -> N.of_nat (length L) < 2 ^ 64 ->
  exists R' m', cascade fuel R m y = Some (R', m') /\ forest m' R' L None None /\ keys_same m m' /\ incl R R'.
Proof.
  induction fuel as [| f IH]; intros m R L y F Ly Hf Hb.
  - pose proof (NoDup_incl_length (f_ndR _ _ _ _ _ F) (fun x Hx => f_root _ _ _ _ _ F x Hx)). lia.
  - cbn [cascade]. destruct (f_def _ _ _ _ _ F y Ly) as (n & En). rewrite En. cbn [obind]. destruct (nparent n) as [z |] eqn:Ep.
    + destruct (nmark n) eqn:Em.
      * destruct (cut_ok m R L (Some y) None y z n F Ly En Ep) as (m1 & C1 & C2 & C3 & C4); auto. rewrite C1. cbn [obind].
        destruct (IH m1 (R ++ [y]) L z C2 C4) as (R' & m' & I1 & I2 & I3 & I4); [rewrite app_length; cbn [length]; lia | exact Hb|].
        exists R', m'. split; [exact I1|]. split; [exact I2|]. split; [apply (keys_trans m m1); auto|]. intros a Ha. apply I4, in_or_app; auto.
      * eexists _, _. split; [reflexivity|]. set (n' := mkN (nkey n) (Some z) (nkids n) (ndeg n) true). set (m' := put m y n').
        assert (Hy : m' y = Some n') by apply put_eq.
        assert (Hold : forall a p, m' a = Some p -> exists q, m a = Some q /\ nkey q = nkey p /\ nparent q = nparent p /\ nkids q = nkids p /\ ndeg q = ndeg p /\
           b2n (nmark q) + b2n (is (Some y) a) = b2n (nmark p)).
        { intros a p Hp. unfold m', put in Hp. unfold is. destruct (N.eqb_spec a y) as [-> | Na]; [injection Hp as <-; exists n; rewrite Em; auto 10|]. exists p. cbn [b2n]. rewrite N.add_0_r. auto 10. }
        assert (Hnew : forall a p, m a = Some p -> exists q, m' a = Some q /\ nparent q = nparent p /\ nkids q = nkids p).
        { intros a p Hp. unfold m', put. destruct (N.eqb_spec a y) as [-> | Na]; [|eauto]. exists n'. replace p with n by congruence. auto. }
        split; [|split; [apply (keys_put m y n); auto | apply incl_refl]]. constructor.
        -- apply (f_ndL _ _ _ _ _ F).
        -- apply (f_ndR _ _ _ _ _ F).
        -- intros a Ha. destruct (f_def _ _ _ _ _ F a Ha) as (p & E). destruct (Hnew a p E) as (q & Eq & _). eauto.
        -- apply (f_root _ _ _ _ _ F).
        -- intros a p Ha E. destruct (Hold a p E) as (q & Q1 & Q2 & Q3 & Q4 & Q5 & Q6). rewrite <- Q3. apply (f_iff _ _ _ _ _ F a q Ha Q1).
        -- intros a p w Ha E Ew. destruct (Hold a p E) as (q & Q1 & Q2 & Q3 & Q4 & Q5 & Q6). rewrite <- Q3 in Ew. destruct (f_par _ _ _ _ _ F a q w Ha Q1 Ew) as (Lw & nw & W1 & W2).
           split; [exact Lw|]. destruct (Hnew w nw W1) as (nw' & W3 & W4 & W5). exists nw'. rewrite W5. auto.
        -- intros a p c Ha E Hc. destruct (Hold a p E) as (q & Q1 & Q2 & Q3 & Q4 & Q5 & Q6). rewrite <- Q4 in Hc. destruct (f_kid _ _ _ _ _ F a q c Ha Q1 Hc) as (Lc & nc & W1 & W2).
           split; [exact Lc|]. destruct (Hnew c nc W1) as (nw' & W3 & W4 & W5). exists nw'. rewrite W4. auto.
        -- intros a p Ha E. destruct (Hold a p E) as (q & Q1 & Q2 & Q3 & Q4 & Q5 & Q6). rewrite <- Q4, <- Q5. apply (f_kids _ _ _ _ _ F a q Ha Q1).
        -- intros a p i c nc Ha E Hi Ec. destruct (Hold a p E) as (q & Q1 & Q2 & Q3 & Q4 & Q5 & Q6). rewrite <- Q4 in Hi. destruct (Hold c nc Ec) as (qc & C1 & C2 & C3 & C4 & C5 & C6).
           pose proof (f_deg _ _ _ _ _ F a q i c qc Ha Q1 Hi C1) as D. rewrite <- C5, <- C6. cbn [is b2n] in *. clear - D. lia.
        -- intros a p w nw Ha E Ew Enw _. destruct (Hold a p E) as (q & Q1 & Q2 & Q3 & Q4 & Q5 & Q6). destruct (Hold w nw Enw) as (qw & W1 & W2 & _). rewrite <- Q2, <- W2. rewrite <- Q3 in Ew.
           apply (f_ord _ _ _ _ _ F a q w qw); auto.
        -- destruct (f_rank _ _ _ _ _ F) as (rk & Hr). exists rk. intros a p w Ha E Ew. destruct (Hold a p E) as (q & Q1 & Q2 & Q3 & _). rewrite <- Q3 in Ew. apply (Hr a q w Ha Q1 Ew).
    + exists R, m. split; [reflexivity|]. split; [|split; [apply keys_refl | apply incl_refl]].
      assert (Ry : In y R) by (apply (f_iff _ _ _ _ _ F y n Ly En); exact Ep). destruct F as [F1 F2 F3 F4 F5 F6 F7 F8 F9 F10 F11]. constructor; auto.
      intros a p i c nc Ha E Hi Ec. pose proof (F9 a p i c nc Ha E Hi Ec) as D. cbn [is b2n] in *. destruct (N.eqb_spec c y) as [-> | Nc]; [|exact D].
      exfalso. destruct (F7 a p y Ha E (nth_error_In _ _ Hi)) as (_ & n1 & E1 & E2). congruence.
Qed.

(** * Consolidation *)
Definition slots (arr : list (option N)) (P : list N) (x : option N) (m : memory) : Prop :=
  length arr = lgn /\
  (forall d a, nth_error arr d = Some (Some a) -> In a P /\ is x a = false /\ exists n, m a = Some n /\ N.to_nat (ndeg n) = d) /\
  (forall a n, In a P -> is x a = false -> m a = Some n -> nth_error arr (N.to_nat (ndeg n)) = Some (Some a)).
Definition wnext (Q rs : list N) : option N := match Q with q :: _ => Some q | [] => hd_error rs end.
Lemma is_some x a : is (Some x) a = false <-> a <> x.
Proof. unfold is. destruct (N.eqb_spec a x); intuition congruence. Qed.
Lemma nth_upd_eq A (l : list A) i x : (i < length l)%nat -> nth_error (upd l i x) i = Some x.
Proof. revert i; induction l as [| y r IH]; intros [| i] H; cbn in *; try lia; [reflexivity|]. apply IH; lia. Qed.
Lemma nth_upd_ne A (l : list A) i j x : i <> j -> nth_error (upd l i x) j = nth_error l j.
Proof. revert i j; induction l as [| y r IH]; intros [| i] [| j] H; cbn; try reflexivity; try lia. apply IH; lia. Qed.

Lemma merge_ok Q L fuel : forall P m arr x w d nx, forest m (P ++ Q) L None None -> N.of_nat (length L) < limit -> In x P -> m x = Some nx -> d = N.to_nat (ndeg nx) ->
  slots arr P (Some x) m -> wnext Q (P ++ Q) = Some w -> (lgn < fuel + d)%nat ->
  exists P' m' arr' w', merge lt fuel (P ++ Q) m arr x w d = Some (P' ++ Q, m', arr', w') /\ forest m' (P' ++ Q) L None None /\ slots arr' P' None m' /\
    wnext Q (P' ++ Q) = Some w' /\ keys_same m m' /\ P' <> [].
Proof.
  induction fuel as [| f IH]; intros P m arr x w d nx F Hb Px Ex Ed (S1 & S2 & S3) Hw Hf.
  - exfalso. assert (Lx : In x L) by (apply (f_root _ _ _ _ _ F), in_or_app; auto). pose proof (degree_small m _ L x nx F Hb Lx Ex). lia.
  - assert (Lx : In x L) by (apply (f_root _ _ _ _ _ F), in_or_app; auto). pose proof (degree_small m _ L x nx F Hb Lx Ex) as Dx.
    cbn [merge]. destruct (nth_error arr d) as [s |] eqn:Es; [|apply nth_error_None in Es; lia]. cbn [obind]. destruct s as [y |].
    + destruct (S2 d y Es) as (Py & Ny & ny & Ey & Edy). apply is_some in Ny. rewrite Ex, Ey. cbn [obind].
      assert (Step : forall u v nu nv, In u P -> In v P -> u <> v -> m u = Some nu -> m v = Some nv -> N.to_nat (ndeg nu) = d -> N.to_nat (ndeg nv) = d -> lt (nkey nv) (nkey nu) = false ->
        (forall a, In a P -> a <> u -> a <> v -> is (Some x) a = false /\ a <> y) -> (forall a, is (Some x) a = false -> a <> y -> a <> u /\ a <> v) ->
        exists P' m' arr' w', (w1 <- (if v =? w then right_of (P ++ Q) w else Some w) ;; r <- link (P ++ Q) m v u ;; let '(rs, m0) := r in merge lt f rs m0 (upd arr d None) u w1 (S d)) = Some (P' ++ Q, m', arr', w') /\
          forest m' (P' ++ Q) L None None /\ slots arr' P' None m' /\ wnext Q (P' ++ Q) = Some w' /\ keys_same m m' /\ P' <> []).
      { intros u v nu nv Pu Pv Huv Eu Ev Edu Edv Ho Hrest Hrest2.
        pose proof (f_ndR _ _ _ _ _ F) as DR.
        assert (NvQ : ~ In v Q).
        { intros X. apply in_split in Pv. destruct Pv as (p1 & p2 & ->). rewrite <- app_assoc in DR. cbn [app] in DR. apply NoDup_remove_2 in DR. apply DR. rewrite !in_app_iff. auto. }
        assert (Dr : drop v (P ++ Q) = drop v P ++ Q) by (rewrite drop_app, (drop_none v Q NvQ); reflexivity).
        assert (Hw1 : exists w1, (if v =? w then right_of (P ++ Q) w else Some w) = Some w1 /\ wnext Q (drop v P ++ Q) = Some w1).
        { destruct (N.eqb_spec v w) as [<- | Nw].
          - destruct Q as [| q Q']; [|cbn [wnext] in Hw; injection Hw as ->; destruct NvQ; left; reflexivity].
            rewrite app_nil_r in *. destruct P as [| p0 P0]; [destruct Pu|]. cbn [wnext hd_error] in Hw. injection Hw as ->.
            assert (Nv0 : ~ In v P0) by (inversion DR; auto). cbn [wnext]. unfold drop. cbn [filter]. rewrite N.eqb_refl. cbn [negb]. fold (drop v P0). rewrite (drop_none v P0 Nv0).
            rewrite app_nil_r. unfold right_of. pose proof (after_ok [] v P0 (fun X => X)) as A. cbn [app] in A. rewrite A. cbn [obind].
            destruct P0 as [| p1 P1]; [destruct Pu as [<- | []]; congruence|]. cbn [hd_error]. eauto.
          - exists w. split; [reflexivity|]. destruct Q as [| q Q']; [|exact Hw]. cbn [wnext] in *. rewrite app_nil_r in *. destruct P as [| p0 P0]; [destruct Pu|]. cbn [hd_error] in Hw. injection Hw as ->.
            unfold drop. cbn [filter]. destruct (N.eqb_spec w v); [congruence|]. reflexivity. }
        destruct Hw1 as (w1 & -> & Hw1). cbn [obind].
        assert (Deq : ndeg nu = ndeg nv) by (apply Nnat.N2Nat.inj; congruence).
        assert (Bd : ndeg nu + 1 < 2 ^ 64) by (clear - Edu Dx Ed; subst d; unfold lgn in *; lia).
        destruct (link_ok m (P ++ Q) L u v nu nv F) as (m1 & K1 & K2 & K3 & (nu' & K4 & K5) & K6); auto; try (apply in_or_app; auto; fail).
        rewrite K1. cbn [obind]. rewrite Dr in *.
        destruct (IH (drop v P) m1 (upd arr d None) u w1 (S d) nu') as (P' & m' & arr' & w' & I1 & I2 & I3 & I4 & I5 & I6); auto.
        - apply drop_in. auto.
        - rewrite K5. clear - Edu. lia.
        - split; [rewrite upd_length; exact S1|]. split.
          + intros e a He. destruct (Nat.eq_dec d e) as [<- | Ne]; [rewrite nth_upd_eq in He by lia; discriminate|]. rewrite nth_upd_ne in He by exact Ne.
            destruct (S2 e a He) as (Pa & Na & na & Ea & Da). assert (Nay : a <> y) by (intros ->; apply Ne; congruence).
            destruct (Hrest2 a Na Nay) as [A1 A2]. split; [apply drop_in; auto|]. split; [apply is_some; exact A1|]. exists na. rewrite K6 by auto. auto.
          + intros a na Pa Na Ea. apply drop_in in Pa. destruct Pa as [Pa Nav]. apply is_some in Na. rewrite K6 in Ea by auto. destruct (Hrest a Pa Na Nav) as [A1 A2].
            pose proof (S3 a na Pa A1 Ea) as X. rewrite nth_upd_ne; [exact X|]. intros E. rewrite <- E, Es in X. injection X as X. auto.
        - lia.
        - exists P', m', arr', w'. split; [exact I1|]. split; [exact I2|]. split; [exact I3|]. split; [exact I4|]. split; [apply (keys_trans m m1); auto | exact I6]. }
      destruct (lt (nkey ny) (nkey nx)) eqn:Lt; [apply (Step y x ny nx) | apply (Step x y nx ny)]; auto.
      all: try (apply lasym; exact Lt).
      all: intros a; rewrite is_some; auto.
    + exists P, m, (upd arr d (Some x)), w. split; [reflexivity|]. split; [exact F|]. split; [|split; [exact Hw|split; [apply keys_refl | intros ->; destruct Px]]].
      split; [rewrite upd_length; exact S1|]. split.
      * intros e a He. destruct (Nat.eq_dec d e) as [<- | Ne].
        -- rewrite nth_upd_eq in He by lia. injection He as <-. split; [exact Px|]. split; [reflexivity|]. exists nx. auto.
        -- rewrite nth_upd_ne in He by exact Ne. destruct (S2 e a He) as (Pa & _ & X). auto.
      * intros a na Pa _ Ea. destruct (N.eq_dec a x) as [-> | Nax].
        -- rewrite Ex in Ea. injection Ea as <-. rewrite <- Ed. apply nth_upd_eq. lia.
        -- pose proof (S3 a na Pa (proj2 (is_some x a) Nax) Ea) as X. rewrite nth_upd_ne; [exact X|]. intros E. rewrite <- E, Es in X. discriminate.
Qed.

Lemma scan_ok L fuel : forall P Q m arr w, forest m (P ++ Q) L None None -> N.of_nat (length L) < limit -> slots arr P None m -> wnext Q (P ++ Q) = Some w -> (length Q < fuel)%nat ->
  exists R' m' arr', scan lt fuel (P ++ Q) m arr w (match P with [] => false | _ => true end) = Some (R', m', arr') /\ forest m' R' L None None /\ slots arr' R' None m' /\ keys_same m m' /\ R' <> [].
Proof.
  induction fuel as [| f IH]; intros P Q m arr w F Hb Sl Hw Hf; [lia|]. cbn [scan].
  pose proof (f_ndR _ _ _ _ _ F) as DR.
  destruct Q as [| q Q].
  - rewrite app_nil_r in *. cbn [wnext] in Hw. rewrite Hw. cbn [obind]. rewrite N.eqb_refl. destruct P as [| p0 P0]; [discriminate|]. cbn [andb].
    exists (p0 :: P0), m, arr. split; [reflexivity|]. split; [exact F|]. split; [exact Sl|]. split; [apply keys_refl | discriminate].
  - cbn [wnext] in Hw. injection Hw as <-.
    assert (Hcont : exists first, hd_error (P ++ q :: Q) = Some first /\ (q =? first) && (match P with [] => false | _ => true end) = false /\ (if q =? first then true else match P with [] => false | _ => true end) = true).
    { destruct P as [| p0 P0]; cbn [app hd_error].
      - exists q. rewrite N.eqb_refl. auto.
      - exists p0. split; [reflexivity|]. destruct (N.eqb_spec q p0) as [-> | Nq]; [|auto]. exfalso. cbn [app] in DR. inversion DR as [| ? ? X]; subst. apply X, in_or_app. right; left; reflexivity. }
    destruct Hcont as (first & H1 & H2 & H3). rewrite H1. cbn [obind]. rewrite H2, H3.
    assert (NqP : ~ In q P) by (apply NoDup_remove_2 in DR; intros X; apply DR, in_or_app; auto).
    assert (Hr : exists w1, right_of (P ++ q :: Q) q = Some w1 /\ wnext Q (P ++ q :: Q) = Some w1).
    { unfold right_of. rewrite after_ok by exact NqP. cbn [obind]. destruct Q as [| q1 Q1]; cbn [hd_error wnext]; [|eauto]. rewrite H1. eauto. }
    destruct Hr as (w1 & -> & Hw1). cbn [obind].
    assert (Lq : In q L) by (apply (f_root _ _ _ _ _ F), in_elt). destruct (f_def _ _ _ _ _ F q Lq) as (n & En). rewrite En. cbn [obind].
    replace (P ++ q :: Q) with ((P ++ [q]) ++ Q) in * by (rewrite <- app_assoc; reflexivity).
    destruct Sl as (S1 & S2 & S3).
    destruct (merge_ok Q L (S lgn) (P ++ [q]) m arr q w1 (N.to_nat (ndeg n)) n F Hb) as (P' & m' & arr' & w' & M1 & M2 & M3 & M4 & M5 & M6); auto.
    + apply in_or_app. right; left; reflexivity.
    + split; [exact S1|]. split.
      * intros d a Ha. destruct (S2 d a Ha) as (Pa & _ & X). split; [apply in_or_app; auto|]. split; [|exact X]. apply is_some. intros ->. auto.
      * intros a na Pa Na Ea. apply is_some in Na. apply in_app_or in Pa. destruct Pa as [Pa | [<- | []]]; [|congruence]. apply S3; auto.
    + lia.
    + rewrite M1. cbn [obind]. destruct (IH P' Q m' arr' w' M2 Hb M3 M4) as (R' & m2 & arr2 & T1 & T2 & T3 & T4 & T5); [cbn [length] in Hf; lia|].
      destruct P' as [| p0 P0]; [congruence|]. exists R', m2, arr2. split; [exact T1|]. split; [exact T2|]. split; [exact T3|]. split; [apply (keys_trans m m'); auto | exact T5].
Qed.

Definition somes (arr : list (option N)) : list N := flat_map (fun s => match s with Some a => [a] | None => [] end) arr.
Lemma somes_in arr a : In a (somes arr) <-> exists d, nth_error arr d = Some (Some a).
Proof.
  unfold somes. rewrite in_flat_map. split.
  - intros (s & Hs & Ha). destruct s as [b |]; [|destruct Ha]. destruct Ha as [<- | []]. apply In_nth_error in Hs. exact Hs.
  - intros (d & Hd). exists (Some a). split; [eapply nth_error_In; eauto | left; reflexivity].
Qed.
Lemma somes_nodup arr : (forall d e a, nth_error arr d = Some (Some a) -> nth_error arr e = Some (Some a) -> d = e) -> NoDup (somes arr).
Proof.
  induction arr as [| s r IH]; intros H; [constructor|].
  assert (Hr : NoDup (somes r)) by (apply IH; intros d e a Hd He; pose proof (H (S d) (S e) a Hd He); lia).
  destruct s as [a |]; [|exact Hr]. change (NoDup (a :: somes r)). constructor; [|exact Hr]. intros X. apply somes_in in X. destruct X as (d & Hd). pose proof (H O (S d) a eq_refl Hd). lia.
Qed.
Definition least_of (m : memory) (l : list N) (mn : option N) : Prop :=
  match mn with None => l = [] | Some z => In z l /\ forall a n nz, In a l -> m a = Some n -> m z = Some nz -> lt (nkey n) (nkey nz) = false end.
Lemma gather_ok arr : forall rs m new mn, NoDup (somes arr) -> incl (somes arr) rs -> NoDup rs ->
  (forall a, In a (somes arr) -> exists n, m a = Some n /\ nparent n = None) -> (forall a, In a new -> exists n, m a = Some n) -> least_of m new mn ->
  exists m' mn', gather lt arr rs m new mn = Some (new ++ somes arr, m', mn') /\ (forall a, m' a = m a) /\ least_of m (new ++ somes arr) mn'.
Proof.
  induction arr as [| s r IH]; intros rs m new mn D I DR Hp Hn Hl.
  - exists m, mn. cbn [gather somes flat_map]. rewrite app_nil_r. auto.
  - destruct s as [a |]; [|apply (IH rs m new mn); auto].
    change (somes (Some a :: r)) with (a :: somes r) in *. inversion D as [| ? ? Na Dr]; subst. cbn [gather]. rewrite ring_del_ok by (apply I; left; reflexivity). cbn [obind].
    destruct (Hp a (or_introl eq_refl)) as (n & En & Pn). rewrite En. cbn [obind].
    assert (Hm : forall b, put m a (mkN (nkey n) None (nkids n) (ndeg n) (nmark n)) b = m b).
    { intros b. unfold put. destruct (N.eqb_spec b a) as [-> | Nb]; [|reflexivity]. rewrite En. destruct n; cbn in *. subst. reflexivity. }
    set (m1 := put m a _) in *.
    assert (Hmn : exists mn1, (match mn with None => Some a | Some b => nb <- m1 b ;; Some (if lt (nkey n) (nkey nb) then a else b) end) = Some mn1 /\ least_of m (new ++ [a]) (Some mn1)).
    { destruct mn as [b |].
      - destruct Hl as [Hb1 Hb2]. destruct (Hn b Hb1) as (nb & Eb). rewrite Hm, Eb. cbn [obind]. eexists. split; [reflexivity|].
        destruct (lt (nkey n) (nkey nb)) eqn:Lt.
        + split; [apply in_or_app; right; left; reflexivity|]. intros c nc na Hc Ec Ea. replace na with n by congruence. apply in_app_or in Hc. destruct Hc as [Hc | [<- | []]].
          * pose proof (Hb2 c nc nb Hc Ec Eb) as X. apply (lle _ (nkey nb)); [apply lasym; exact Lt | exact X].
          * replace nc with n by congruence. apply lirr.
        + split; [apply in_or_app; left; exact Hb1|]. intros c nc nb' Hc Ec Eb'. replace nb' with nb by congruence. apply in_app_or in Hc. destruct Hc as [Hc | [<- | []]].
          * apply (Hb2 c nc nb Hc Ec Eb).
          * replace nc with n by congruence. exact Lt.
      - cbn [least_of] in Hl. subst new. exists a. split; [reflexivity|]. split; [left; reflexivity|]. intros c nc na [<- | []] Ec Ea. replace nc with na by congruence. apply lirr. }
    destruct Hmn as (mn1 & -> & Hl1). cbn [obind].
    destruct (IH (drop a rs) m1 (new ++ [a]) (Some mn1)) as (m' & mn' & G1 & G2 & G3).
    + exact Dr.
    + intros b Hb. apply drop_in. split; [apply I; right; exact Hb|]. intros ->. auto.
    + apply drop_nodup; exact DR.
    + intros b Hb. rewrite Hm. apply Hp. right; exact Hb.
    + intros b Hb. rewrite Hm. apply in_app_or in Hb. destruct Hb as [Hb | [<- | []]]; eauto.
    + destruct Hl1 as [A B]. split; [exact A|]. intros c nc nz Hc. rewrite !Hm. apply B; exact Hc.
    + exists m', mn'. replace (new ++ a :: somes r) with ((new ++ [a]) ++ somes r) by (rewrite <- app_assoc; reflexivity). split; [exact G1|].
      split; [intros b; rewrite G2; apply Hm|]. destruct mn' as [z |]; [|exact G3]. destruct G3 as [A B]. split; [exact A|]. intros c nc nz Hc Ec Ez. apply (B c nc nz Hc); rewrite Hm; assumption.
Qed.
Lemma consolidate_ok m R L : forest m R L None None -> N.of_nat (length L) < limit -> R <> [] ->
  exists R' m' mn, consolidate lt R m = Some (R', m', Some mn) /\ forest m' R' L None None /\ keys_same m m' /\ least_of m' R' (Some mn).
Proof.
  intros F Hb Hn. unfold consolidate. destruct R as [| r0 R0]; [congruence|]. cbn [hd_error obind].
  destruct (scan_ok L (S (length (r0 :: R0))) [] (r0 :: R0) m (repeat None lgn) r0) as (R1 & m1 & arr & T1 & T2 & (S1 & S2 & S3) & T4 & T5); auto.
  { split; [apply repeat_length|]. split; [|intros a n []]. intros d a Hd. apply nth_error_In, repeat_spec in Hd. discriminate. }
  cbn [app] in T1. rewrite T1. cbn [obind].
  assert (HR : forall a, In a (somes arr) <-> In a R1).
  { intros a. rewrite somes_in. split; [intros (d & Hd); apply (S2 d a Hd)|]. intros Ha.
    destruct (f_def _ _ _ _ _ T2 a (f_root _ _ _ _ _ T2 a Ha)) as (n & En). eexists. apply (S3 a n Ha eq_refl En). }
  assert (DS : NoDup (somes arr)).
  { apply somes_nodup. intros d e a Hd He. destruct (S2 d a Hd) as (_ & _ & n & E1 & E2). destruct (S2 e a He) as (_ & _ & n' & E3 & E4). congruence. }
  destruct (gather_ok arr R1 m1 [] None) as (m2 & mn & G1 & G2 & G3); auto.
  { intros a Ha. apply HR; exact Ha. }
  { apply (f_ndR _ _ _ _ _ T2). }
  { intros a Ha. apply HR in Ha. pose proof (f_root _ _ _ _ _ T2 a Ha) as La. destruct (f_def _ _ _ _ _ T2 a La) as (n & En). exists n. split; [exact En|]. apply (f_iff _ _ _ _ _ T2 a n La En); exact Ha. }
  { intros a []. }
  { reflexivity. }
  rewrite G1. cbn [app] in *. destruct mn as [z |].
  - exists (somes arr), m2, z. split; [reflexivity|]. split; [apply (forest_ext m1 m2 R1); auto|]. split.
    + apply (keys_trans m m1); [exact T4|]. intros a. rewrite G2. reflexivity.
    + destruct G3 as [A B]. split; [exact A|]. intros c nc nz Hc. rewrite !G2. apply B; exact Hc.
  - exfalso. cbn [least_of] in G3. destruct R1 as [| a R2]; [congruence|]. assert (X : In a (somes arr)) by (apply HR; left; reflexivity). rewrite G3 in X. destruct X.
Qed.

(** * Making the children of a node roots *)
Definition orphan (n : node) : node := mkN (nkey n) None (nkids n) (ndeg n) (nmark n).
Lemma spill_ok z ks : forall R m n, m z = Some n -> nkids n = ks -> NoDup ks -> ~ In z ks -> (forall c, In c ks -> exists nc, m c = Some nc) ->
  exists m', spill (length ks) R m z = Some (R ++ ks, m') /\ (exists n', m' z = Some n' /\ nkey n' = nkey n) /\ (forall c nc, In c ks -> m c = Some nc -> m' c = Some (orphan nc)) /\
    (forall b, b <> z -> ~ In b ks -> m' b = m b).
Proof.
  induction ks as [| c r IH]; intros R m n En Ek D Nz Hd.
  - exists m. cbn [length spill]. rewrite En. cbn [obind]. rewrite Ek, app_nil_r. split; [reflexivity|]. split; [eauto|]. split; [intros c nc [] | auto].
  - cbn [length spill]. rewrite En. cbn [obind]. rewrite Ek. inversion D as [| ? ? Nc Dr]; subst.
    assert (Hzc : c <> z) by (intros ->; apply Nz; left; reflexivity). rewrite put_ne by exact Hzc. destruct (Hd c (or_introl eq_refl)) as (nc & Ec). rewrite Ec. cbn [obind].
    set (n1 := mkN (nkey n) (nparent n) r (ndeg n) (nmark n)). fold (orphan nc). set (m1 := put (put m z n1) c (orphan nc)).
    assert (E1 : m1 z = Some n1) by (unfold m1; rewrite put_ne by auto; apply put_eq).
    destruct (IH (R ++ [c]) m1 n1 E1 eq_refl Dr) as (m' & S1 & (n' & S2 & S2') & S3 & S4).
    + intros X; apply Nz; right; exact X.
    + intros b Hb. unfold m1. rewrite !put_ne; [apply Hd; right; exact Hb | |]; intros ->; [apply Nz; right; exact Hb | auto].
    + exists m'. split; [rewrite S1, <- app_assoc; reflexivity|]. split; [eauto|]. split.
      * intros b nb [<- | Hb] Eb.
        -- rewrite S4 by auto. unfold m1. rewrite put_eq. congruence.
        -- apply S3; [exact Hb|]. unfold m1. rewrite !put_ne; auto; intros ->; [apply Nz; right; exact Hb | auto].
      * intros b Nb Nk. rewrite S4; [|exact Nb|intros X; apply Nk; right; exact X]. unfold m1. rewrite !put_ne; auto. intros ->. apply Nk. left; reflexivity.
Qed.
Lemma forest_spilled m m' R L z n : forest m R L None None -> In z R -> m z = Some n ->
  (forall c nc, In c (nkids n) -> m c = Some nc -> m' c = Some (orphan nc)) -> (forall b, b <> z -> ~ In b (nkids n) -> m' b = m b) ->
  forest m' (drop z (R ++ nkids n)) (drop z L) None None.
Proof.
  intros F Rz En H1 H2. assert (Lz : In z L) by (apply (f_root _ _ _ _ _ F); exact Rz).
  assert (Pz : nparent n = None) by (apply (f_iff _ _ _ _ _ F z n Lz En); exact Rz).
  assert (Nkz : ~ In z (nkids n)) by (intros X; apply (kid_not_root m R L _ _ z n z F Lz En X Rz)).
  assert (Hold : forall a p, In a L -> a <> z -> m' a = Some p -> exists q, m a = Some q /\ nkey q = nkey p /\ nkids q = nkids p /\ ndeg q = ndeg p /\ nmark q = nmark p /\
    ((In a (nkids n) /\ nparent p = None /\ nparent q = Some z) \/ (~ In a (nkids n) /\ nparent q = nparent p))).
  { intros a p Ha Na Ep. destruct (in_dec N.eq_dec a (nkids n)) as [Hk | Hk].
    - destruct (f_kid _ _ _ _ _ F z n a Lz En Hk) as (_ & q & E1 & E2). rewrite (H1 a q Hk E1) in Ep. injection Ep as <-. exists q. cbn [orphan nkey nkids ndeg nmark nparent]. auto 10.
    - rewrite H2 in Ep by auto. exists p. auto 10. }
  assert (Hnew : forall a q, In a L -> a <> z -> m a = Some q -> exists p, m' a = Some p /\ nkids p = nkids q /\ (nparent q <> Some z -> nparent p = nparent q)).
  { intros a q Ha Na Eq. destruct (in_dec N.eq_dec a (nkids n)) as [Hk | Hk].
    - exists (orphan q). split; [apply H1; auto|]. split; [reflexivity|]. destruct (f_kid _ _ _ _ _ F z n a Lz En Hk) as (_ & q' & E1 & E2). intros X. congruence.
    - exists q. rewrite H2; auto. }
  constructor.
  - apply drop_nodup. apply (f_ndL _ _ _ _ _ F).
  - apply drop_nodup. pose proof (f_ndR _ _ _ _ _ F) as DR. pose proof (proj1 (f_kids _ _ _ _ _ F z n Lz En)) as DK.
    assert (X : forall c, In c (nkids n) -> ~ In c R) by (intros c; apply (kid_not_root m R L _ _ z n c F Lz En)).
    clear - DR DK X. induction R as [| a r IH]; [exact DK|]. inversion DR; subst. cbn [app]. constructor.
    + intros Y. apply in_app_or in Y. destruct Y as [Y | Y]; [auto|]. apply (X a Y). left; reflexivity.
    + apply IH; auto. intros c Hc Hr. apply (X c Hc). right; exact Hr.
  - intros a Ha. apply drop_in in Ha. destruct Ha as [Ha Na]. destruct (f_def _ _ _ _ _ F a Ha) as (q & Eq). destruct (Hnew a q Ha Na Eq) as (p & Ep & _). eauto.
  - intros a Ha. apply drop_in in Ha. destruct Ha as [Ha Na]. apply drop_in. split; [|exact Na]. apply in_app_or in Ha. destruct Ha as [Ha | Ha]; [apply (f_root _ _ _ _ _ F); exact Ha|].
    apply (f_kid _ _ _ _ _ F z n a Lz En Ha).
  - intros a p Ha Ep. apply drop_in in Ha. destruct Ha as [Ha Na]. rewrite drop_in, in_app_iff. destruct (Hold a p Ha Na Ep) as (q & Eq & _ & _ & _ & _ & [(X1 & X2 & X3) | (X1 & X2)]); [tauto|].
    rewrite <- X2. pose proof (f_iff _ _ _ _ _ F a q Ha Eq). tauto.
  - intros a p y Ha Ep Ey. apply drop_in in Ha. destruct Ha as [Ha Na]. destruct (Hold a p Ha Na Ep) as (q & Eq & _ & _ & _ & _ & [(X1 & X2 & X3) | (X1 & X2)]); [congruence|].
    rewrite <- X2 in Ey. destruct (f_par _ _ _ _ _ F a q y Ha Eq Ey) as (Ly & ny & Y1 & Y2).
    assert (Ny : y <> z) by (intros ->; apply X1; congruence). split; [apply drop_in; auto|]. destruct (Hnew y ny Ly Ny Y1) as (p' & P1 & P2 & _). exists p'. rewrite P2. auto.
  - intros a p c Ha Ep Hc. apply drop_in in Ha. destruct Ha as [Ha Na]. destruct (Hold a p Ha Na Ep) as (q & Eq & _ & Kq & _). rewrite <- Kq in Hc.
    destruct (f_kid _ _ _ _ _ F a q c Ha Eq Hc) as (Lc & nc & C1 & C2). assert (Nc : c <> z) by (intros ->; congruence). split; [apply drop_in; auto|].
    destruct (Hnew c nc Lc Nc C1) as (p' & P1 & P2 & P3). exists p'. split; [exact P1|]. rewrite P3; congruence.
  - intros a p Ha Ep. apply drop_in in Ha. destruct Ha as [Ha Na]. destruct (Hold a p Ha Na Ep) as (q & Eq & _ & Kq & Dq & _). rewrite <- Kq, <- Dq. apply (f_kids _ _ _ _ _ F a q Ha Eq).
  - intros a p i c nc Ha Ep Hi Ec. apply drop_in in Ha. destruct Ha as [Ha Na]. destruct (Hold a p Ha Na Ep) as (q & Eq & _ & Kq & _). rewrite <- Kq in Hi.
    destruct (f_kid _ _ _ _ _ F a q c Ha Eq (nth_error_In _ _ Hi)) as (Lc & nc0 & C1 & C2). assert (Nc : c <> z) by (intros ->; congruence).
    destruct (Hold c nc Lc Nc Ec) as (qc & Q1 & _ & _ & Q2 & Q3 & _). rewrite <- Q2, <- Q3. apply (f_deg _ _ _ _ _ F a q i c qc Ha Eq Hi Q1).
  - intros a p y ny Ha Ep Ey Eny _. apply drop_in in Ha. destruct Ha as [Ha Na]. destruct (Hold a p Ha Na Ep) as (q & Eq & Kq & _ & _ & _ & [(X1 & X2 & X3) | (X1 & X2)]); [congruence|].
    rewrite <- X2 in Ey. destruct (f_par _ _ _ _ _ F a q y Ha Eq Ey) as (Ly & ny0 & Y1 & Y2). assert (Ny : y <> z) by (intros ->; apply X1; congruence).
    destruct (Hold y ny Ly Ny Eny) as (qy & Z1 & Z2 & _). rewrite <- Kq, <- Z2. apply (f_ord _ _ _ _ _ F a q y qy); auto.
  - destruct (f_rank _ _ _ _ _ F) as (rk & Hr). exists rk. intros a p y Ha Ep Ey. apply drop_in in Ha. destruct Ha as [Ha Na].
    destruct (Hold a p Ha Na Ep) as (q & Eq & _ & _ & _ & _ & [(X1 & X2 & X3) | (X1 & X2)]); [congruence|]. rewrite <- X2 in Ey. apply (Hr a q y Ha Eq Ey).
Qed.

(** * A new root, and a new key *)
Ltac cs C := match goal with |- forall b, In b _ -> @?T b => apply (C T); cbv beta end.
Lemma forest_insert m R L a k : forest m R L None None -> ~ In a L -> forest (put m a (node_new k)) (R ++ [a]) (L ++ [a]) None None.
Proof.
  intros F Na. set (m' := put m a (node_new k)).
  assert (Ha : m' a = Some (node_new k)) by apply put_eq.
  assert (Hm : forall b, In b L -> m' b = m b) by (intros b Hb; apply put_ne; intros ->; auto).
  assert (Cs : forall (T : N -> Prop), (forall b, In b L -> T b) -> T a -> forall b, In b (L ++ [a]) -> T b).
  { intros T H1 H2 b Hb. apply in_app_or in Hb. destruct Hb as [Hb | [<- | []]]; auto. }
  assert (NR : ~ In a R) by (intros X; apply Na, (f_root _ _ _ _ _ F); exact X).
  constructor.
  - apply (Permutation_NoDup (Permutation_cons_append L a)). constructor; [exact Na | apply (f_ndL _ _ _ _ _ F)].
  - apply (Permutation_NoDup (Permutation_cons_append R a)). constructor; [exact NR | apply (f_ndR _ _ _ _ _ F)].
  - cs Cs; [|eauto]. intros b Hb. rewrite Hm by exact Hb. apply (f_def _ _ _ _ _ F); exact Hb.
  - intros b Hb. apply in_app_or in Hb. apply in_or_app. destruct Hb as [Hb | Hb]; [left; apply (f_root _ _ _ _ _ F); exact Hb | right; exact Hb].
  - intros b n Hb. revert n. revert b Hb. cs Cs.
    + intros b Hb n En. rewrite Hm in En by exact Hb. rewrite in_app_iff. cbn [In]. pose proof (f_iff _ _ _ _ _ F b n Hb En). assert (b <> a) by (intros ->; auto). intuition congruence.
    + intros n En. rewrite Ha in En. injection En as <-. cbn [nparent node_new]. rewrite in_app_iff. cbn [In]. tauto.
  - intros b n y Hb. revert n. revert b Hb. cs Cs.
    + intros b Hb n En Ep. rewrite Hm in En by exact Hb. destruct (f_par _ _ _ _ _ F b n y Hb En Ep) as (Ly & X). split; [apply in_or_app; auto|]. rewrite Hm by exact Ly. exact X.
    + intros n En. rewrite Ha in En. injection En as <-. discriminate.
  - intros b n c Hb. revert n. revert b Hb. cs Cs.
    + intros b Hb n En Hc. rewrite Hm in En by exact Hb. destruct (f_kid _ _ _ _ _ F b n c Hb En Hc) as (Lc & X). split; [apply in_or_app; auto|]. rewrite Hm by exact Lc. exact X.
    + intros n En. rewrite Ha in En. injection En as <-. intros [].
  - intros b n Hb. revert n. revert b Hb. cs Cs.
    + intros b Hb n En. rewrite Hm in En by exact Hb. apply (f_kids _ _ _ _ _ F b n Hb En).
    + intros n En. rewrite Ha in En. injection En as <-. split; [constructor | reflexivity].
  - intros b n i c nc Hb. revert n. revert b Hb. cs Cs.
    + intros b Hb n En Hi Ec. rewrite Hm in En by exact Hb. destruct (f_kid _ _ _ _ _ F b n c Hb En (nth_error_In _ _ Hi)) as (Lc & _). rewrite Hm in Ec by exact Lc.
      apply (f_deg _ _ _ _ _ F b n i c nc Hb En Hi Ec).
    + intros n En. rewrite Ha in En. injection En as <-. destruct i; discriminate.
  - intros b n y ny Hb. revert n. revert b Hb. cs Cs.
    + intros b Hb n En Ep Ey H. rewrite Hm in En by exact Hb. destruct (f_par _ _ _ _ _ F b n y Hb En Ep) as (Ly & _). rewrite Hm in Ey by exact Ly. apply (f_ord _ _ _ _ _ F b n y ny); auto.
    + intros n En. rewrite Ha in En. injection En as <-. discriminate.
  - destruct (f_rank _ _ _ _ _ F) as (rk & Hr). exists rk. intros b n y Hb. revert n. revert b Hb. cs Cs.
    + intros b Hb n En. rewrite Hm in En by exact Hb. apply Hr; auto.
    + intros n En. rewrite Ha in En. injection En as <-. discriminate.
Qed.
Lemma forest_key m R L a n k : forest m R L None None -> In a L -> m a = Some n -> lt (nkey n) k = false ->
  forest (put m a (mkN k (nparent n) (nkids n) (ndeg n) (nmark n))) R L None (Some a).
Proof.
  intros F La En Hk. set (n' := mkN k (nparent n) (nkids n) (ndeg n) (nmark n)). set (m' := put m a n').
  assert (Hold : forall b p, m' b = Some p -> exists q, m b = Some q /\ nparent q = nparent p /\ nkids q = nkids p /\ ndeg q = ndeg p /\ nmark q = nmark p /\
     lt (nkey q) (nkey p) = false /\ (b <> a -> q = p)).
  { intros b p Hp. unfold m', put in Hp. destruct (N.eqb_spec b a) as [-> | Nb]; [injection Hp as <-; exists n; repeat split; auto; congruence|]. exists p. repeat split; auto. apply lirr. }
  assert (Hnew : forall b q, m b = Some q -> exists p, m' b = Some p /\ nparent p = nparent q /\ nkids p = nkids q).
  { intros b q Hq. unfold m', put. destruct (N.eqb_spec b a) as [-> | Nb]; [|eauto]. exists n'. replace q with n by congruence. auto. }
  constructor.
  - apply (f_ndL _ _ _ _ _ F).
  - apply (f_ndR _ _ _ _ _ F).
  - intros b Hb. destruct (f_def _ _ _ _ _ F b Hb) as (q & Eq). destruct (Hnew b q Eq) as (p & Ep & _). eauto.
  - apply (f_root _ _ _ _ _ F).
  - intros b p Hb Ep. destruct (Hold b p Ep) as (q & Q1 & Q2 & _). rewrite <- Q2. apply (f_iff _ _ _ _ _ F b q Hb Q1).
  - intros b p y Hb Ep Ey. destruct (Hold b p Ep) as (q & Q1 & Q2 & _). rewrite <- Q2 in Ey. destruct (f_par _ _ _ _ _ F b q y Hb Q1 Ey) as (Ly & ny & Y1 & Y2). split; [exact Ly|].
    destruct (Hnew y ny Y1) as (py & P1 & P2 & P3). exists py. rewrite P3. auto.
  - intros b p c Hb Ep Hc. destruct (Hold b p Ep) as (q & Q1 & _ & Q3 & _). rewrite <- Q3 in Hc. destruct (f_kid _ _ _ _ _ F b q c Hb Q1 Hc) as (Lc & nc & Y1 & Y2). split; [exact Lc|].
    destruct (Hnew c nc Y1) as (pc & P1 & P2 & P3). exists pc. rewrite P2. auto.
  - intros b p Hb Ep. destruct (Hold b p Ep) as (q & Q1 & _ & Q3 & Q4 & _). rewrite <- Q3, <- Q4. apply (f_kids _ _ _ _ _ F b q Hb Q1).
  - intros b p i c nc Hb Ep Hi Ec. destruct (Hold b p Ep) as (q & Q1 & _ & Q3 & _). rewrite <- Q3 in Hi. destruct (Hold c nc Ec) as (qc & C1 & _ & _ & C4 & C5 & _). rewrite <- C4, <- C5.
    apply (f_deg _ _ _ _ _ F b q i c qc Hb Q1 Hi C1).
  - intros b p y ny Hb Ep Ey Eny Hx. apply is_some in Hx. destruct (Hold b p Ep) as (q & Q1 & Q2 & _ & _ & _ & _ & Q7). rewrite (Q7 Hx) in *. destruct (Hold y ny Eny) as (qy & Y1 & _ & _ & _ & _ & Y6 & _).
    apply (lle _ (nkey qy)); [exact Y6|]. apply (f_ord _ _ _ _ _ F b p y qy); auto.
  - destruct (f_rank _ _ _ _ _ F) as (rk & Hr). exists rk. intros b p y Hb Ep Ey. destruct (Hold b p Ep) as (q & Q1 & Q2 & _). rewrite <- Q2 in Ey. apply (Hr b q y Hb Q1 Ey).
Qed.
Lemma forest_hx m R L a n : forest m R L None (Some a) -> In a L -> m a = Some n -> (forall y ny, nparent n = Some y -> m y = Some ny -> lt (nkey n) (nkey ny) = false) -> forest m R L None None.
Proof.
  intros F La En H. destruct F as [F1 F2 F3 F4 F5 F6 F7 F8 F9 F10 F11]. constructor; auto. intros b p y ny Hb Ep Ey Eny _. destruct (N.eq_dec b a) as [-> | Nb].
  - replace p with n in * by congruence. eapply H; eauto.
  - apply (F10 b p y ny); auto. apply is_some; exact Nb.
Qed.

(** * The operations *)
Definition keyed (m : memory) (l : live K) : Prop := forall a k, In (a, k) l -> exists n, m a = Some n /\ nkey n = k.
Record Inv (h : heap K) (l : live K) : Prop := mkI {
  i_forest : forest (mem h) (roots h) (map fst l) None None;
  i_keys : keyed (mem h) l;
  i_num : hnum h = N.of_nat (length l);
  i_min : match hmin h with None => l = [] | Some z => In z (roots h) /\ exists k, least lt l (z, k) end }.

Lemma keyed_same m m' l : keys_same m m' -> keyed m l -> keyed m' l.
Proof. intros S H a k I. destruct (H a k I) as (n & E & En). destruct (keys_get _ _ _ _ S E) as (n' & E' & En'). exists n'. split; [exact E' | congruence]. Qed.
Lemma in_fst (l : live K) a : In a (map fst l) -> exists k, In (a, k) l.
Proof. intros H. apply in_map_iff in H. destruct H as ((b & k) & E & I). cbn in E. subst b. eauto. Qed.
Lemma fst_in (l : live K) a k : In (a, k) l -> In a (map fst l).
Proof. intros H. apply in_map_iff. exists (a, k). auto. Qed.
Lemma one_key (l : live K) a k k' : NoDup (map fst l) -> In (a, k) l -> In (a, k') l -> k = k'.
Proof.
  induction l as [| (b & j) r IH]; cbn; intros D H1 H2; [contradiction|]. apply NoDup_cons_iff in D. destruct D as (D1 & D2).
  destruct H1 as [H1 | H1], H2 as [H2 | H2]; [congruence | | | eauto].
  - injection H1 as -> ->. destruct D1. eapply fst_in; eauto.
  - injection H2 as -> ->. destruct D1. eapply fst_in; eauto.
Qed.
Lemma fst_without a (l : live K) : map fst (without a l) = drop a (map fst l).
Proof. unfold without, drop. induction l as [| (b & k) r IH]; [reflexivity|]. cbn [filter map fst]. destruct (b =? a); cbn [negb map fst]; [exact IH | rewrite IH; reflexivity]. Qed.
Lemma fst_with a k (l : live K) : map fst (with_key a k l) = map fst l.
Proof. unfold with_key. rewrite map_map. apply map_ext. intros (b & j). cbn [fst]. destruct (N.eqb_spec b a); cbn; congruence. Qed.
Lemma in_without a (l : live K) b k : In (b, k) (without a l) <-> In (b, k) l /\ b <> a.
Proof. unfold without. rewrite filter_In. cbn [fst]. destruct (N.eqb_spec b a); cbn; intuition congruence. Qed.
Lemma in_with a k (l : live K) b j : In (b, j) (with_key a k l) <-> (b <> a /\ In (b, j) l) \/ (b = a /\ j = k /\ In a (map fst l)).
Proof.
  unfold with_key. rewrite in_map_iff. split.
  - intros ((c & i) & E & I). cbn [fst] in E. destruct (N.eqb_spec c a) as [-> | Nc]; injection E as <- <-; [right; repeat split; eapply fst_in; eauto | left; auto].
  - intros [(N1 & I) | (-> & -> & I)].
    + exists (b, j). cbn [fst]. destruct (N.eqb_spec b a); [contradiction | auto].
    + destruct (in_fst _ _ I) as (i & I'). exists (a, i). cbn [fst]. rewrite N.eqb_refl. auto.
Qed.
Lemma min_roots m R (l : live K) mn : forest m R (map fst l) None None -> keyed m l -> least_of m R (Some mn) -> exists k, least lt l (mn, k).
Proof.
  intros F Hk (I & Hm). pose proof (f_root _ _ _ _ _ F mn I) as Il. destruct (in_fst _ _ Il) as (k & Ik). exists k. split; [exact Ik|].
  intros (c & kc) Ic. cbn [snd]. destruct (Hk c kc Ic) as (n & En & <-). destruct (Hk mn k Ik) as (nm & Em & <-).
  destruct (root_below _ _ _ _ _ F (fst_in _ _ _ Ic) En) as (r & nr & R1 & R2 & R3). apply (lle _ (nkey nr)); [|exact R3]. apply (Hm r nr nm); auto.
Qed.
Lemma right_ok l z : NoDup l -> In z l -> exists r, right_of l z = Some r /\ (r = z -> drop z l = []) /\ (r <> z -> drop z l <> []).
Proof.
  intros D I. apply in_split in I. destruct I as (l1 & l2 & ->). unfold right_of. pose proof (NoDup_remove_2 _ _ _ D) as Nz. rewrite after_ok by (intros X; apply Nz, in_or_app; auto).
  rewrite drop_mid by exact D. cbn [obind]. destruct l2 as [| b l2]; cbn [hd_error].
  - destruct l1 as [| c l1]; cbn [app hd_error].
    + exists z. split; [reflexivity|]. split; [reflexivity | congruence].
    + exists c. split; [reflexivity|]. split; [intros ->; destruct Nz; left; reflexivity | discriminate].
  - exists b. split; [reflexivity|]. split; [intros ->; destruct Nz; apply in_or_app; right; left; reflexivity | intros _; destruct l1; discriminate].
Qed.

Lemma NoDup_app_intro {A} (l1 l2 : list A) : NoDup l1 -> NoDup l2 -> (forall x, In x l1 -> ~ In x l2) -> NoDup (l1 ++ l2).
Proof.
  intros D1 D2 H. induction D1 as [| x l N1 D1 IH]; [exact D2|]. cbn [app]. constructor.
  - intros X. apply in_app_or in X. destruct X as [X | X]; [contradiction | apply (H x); [left; reflexivity | exact X]].
  - apply IH. intros y Y. apply H. right; exact Y.
Qed.
Lemma inv_new : Inv heap_new [].
Proof.
  constructor; cbn; [|intros a k [] | reflexivity | reflexivity]. constructor; try (intros; contradiction); try solve [constructor]. exists (fun _ => O). intros; contradiction.
Qed.
Lemma insert_inv h l a k : Inv h l -> N.of_nat (length l) + 1 < 2 ^ 64 -> ~ In a (map fst l) -> exists h', insert lt h a k = Some h' /\ Inv h' (l ++ [(a, k)]).
Proof.
  intros [F Hk Hn Hm] Hs Na. unfold insert.
  assert (Hk' : keyed (put (mem h) a (node_new k)) (l ++ [(a, k)])).
  { intros b j I. apply in_app_or in I. destruct I as [I | [I | []]].
    - destruct (Hk b j I) as (n & E & En). exists n. rewrite put_ne; [auto|]. intros ->. apply Na. eapply fst_in; eauto.
    - injection I as <- <-. exists (node_new k). rewrite put_eq. auto. }
  assert (F' : forest (put (mem h) a (node_new k)) (roots h ++ [a]) (map fst (l ++ [(a, k)])) None None) by (rewrite map_app; apply forest_insert; assumption).
  assert (Hn' : w64 (hnum h + 1) = N.of_nat (length (l ++ [(a, k)]))).
  { unfold w64. rewrite Hn, app_length. cbn [length]. rewrite N.mod_small; lia. }
  destruct (hmin h) as [z |].
  - destruct Hm as (Rz & kz & Lz). pose proof Lz as (Iz & Mz). destruct (Hk z kz Iz) as (n & E & En). cbn [obind]. rewrite put_ne by (intros ->; apply Na; eapply fst_in; eauto). rewrite E. cbn [obind].
    eexists. split; [reflexivity|]. constructor; cbn [mem roots hmin hnum]; [exact F' | exact Hk' | exact Hn'|]. rewrite En. destruct (lt k kz) eqn:Hl.
    + split; [apply in_or_app; right; left; reflexivity|]. exists k. split; [apply in_or_app; right; left; reflexivity|]. intros (b & j) I. cbn [snd]. apply in_app_or in I. destruct I as [I | [I | []]].
      * apply (lle _ kz); [apply lasym; exact Hl|]. apply (Mz _ I).
      * injection I as <- <-. apply lirr.
    + split; [apply in_or_app; left; exact Rz|]. exists kz. split; [apply in_or_app; left; exact Iz|]. intros (b & j) I. cbn [snd]. apply in_app_or in I. destruct I as [I | [I | []]]; [apply (Mz _ I)|].
      injection I as <- <-. exact Hl.
  - cbn [obind]. eexists. split; [reflexivity|]. constructor; cbn [mem roots hmin hnum]; [exact F' | exact Hk' | exact Hn'|]. split; [apply in_or_app; right; left; reflexivity|]. subst l. exists k.
    split; [left; reflexivity|]. intros q [<- | []]. apply lirr.
Qed.
Lemma extract_inv h l : Inv h l -> N.of_nat (length l) < limit ->
  (l = [] /\ extract_min lt h = Some (h, None)) \/
  exists h' p, extract_min lt h = Some (h', Some p) /\ least lt l p /\ hmin h = Some (fst p) /\ Inv h' (without (fst p) l).
Proof.
  intros [F Hk Hn Hm] Hs. unfold extract_min. destruct (hmin h) as [z |]; [right | left; auto]. destruct Hm as (Rz & kz & Lz). pose proof Lz as (Iz & Mz). destruct (Hk z kz Iz) as (n & E & En). rewrite E. cbn [obind].
  pose proof (fst_in _ _ _ Iz) as Zl. destruct (f_kids _ _ _ _ _ F z n Zl E) as (Dk & _).
  assert (Nz : ~ In z (nkids n)). { intros X. destruct (f_kid _ _ _ _ _ F z n z Zl E X) as (_ & nc & C1 & C2). replace nc with n in C2 by congruence. destruct (f_rank _ _ _ _ _ F) as (rk & Hr). specialize (Hr z n z Zl E C2). lia. }
  destruct (spill_ok z (nkids n) (roots h) (mem h) n E eq_refl Dk Nz) as (m1 & S1 & (n1 & S2 & _) & S3 & S4).
  { intros c Hc. destruct (f_kid _ _ _ _ _ F z n c Zl E Hc) as (_ & nc & C1 & _). eauto. }
  rewrite S1. cbn [obind].
  pose proof (forest_spilled _ m1 _ _ z n F Rz E S3 S4) as F1.
  assert (Hk1 : keyed m1 (without z l)).
  { intros b j I. apply in_without in I. destruct I as (I & Nb). destruct (Hk b j I) as (nb & B1 & B2). destruct (in_dec N.eq_dec b (nkids n)) as [X | X].
    - rewrite (S3 b nb X B1). eexists. split; [reflexivity | exact B2].
    - rewrite (S4 b Nb X). eauto. }
  assert (DR : NoDup (roots h ++ nkids n)).
  { apply NoDup_app_intro; [apply (f_ndR _ _ _ _ _ F) | exact Dk|]. intros c X Y. exact (kid_not_root _ _ _ _ _ _ _ _ F Zl E Y X). }
  destruct (right_ok (roots h ++ nkids n) z DR) as (r & Er & R1 & R2); [apply in_or_app; left; exact Rz|]. rewrite Er. cbn [obind]. rewrite ring_del_ok by (apply in_or_app; left; exact Rz). cbn [obind].
  assert (Hn' : w64 (hnum h + (2 ^ 64 - 1)) = N.of_nat (length (without z l))).
  { pose proof (drop_length z (map fst l) (f_ndL _ _ _ _ _ F) Zl) as X. rewrite <- fst_without, !map_length in X. unfold w64. rewrite Hn. unfold limit in Hs. clear - X Hs.
    replace (N.of_nat (length l) + (2 ^ 64 - 1)) with (N.of_nat (length (without z l)) + 1 * 2 ^ 64) by lia. rewrite N.mod_add by discriminate. apply N.mod_small. lia. }
  rewrite <- fst_without in F1. destruct (N.eqb_spec z r) as [X | X].
  - cbn [obind]. eexists _, (z, nkey n). split; [reflexivity|]. rewrite En. split; [exact Lz|]. split; [reflexivity|]. cbn [fst]. rewrite (R1 (eq_sym X)) in *.
    constructor; cbn [mem roots hmin hnum]; [exact F1 | exact Hk1 | exact Hn'|]. destruct (without z l) as [| (c & kc) t] eqn:W; [reflexivity|]. exfalso.
    destruct (Hk1 c kc) as (nc & C1 & _); [left; reflexivity|]. destruct (root_below _ _ _ c nc F1) as (q & _ & [] & _); [left; reflexivity | exact C1].
  - destruct (consolidate_ok m1 _ _ F1) as (R' & m' & mn & C1 & C2 & C3 & C4).
    { rewrite map_length. pose proof (drop_length z (map fst l) (f_ndL _ _ _ _ _ F) Zl) as Y. rewrite <- fst_without, !map_length in Y. clear - Y Hs. lia. }
    { apply R2. congruence. }
    rewrite C1. cbn [obind]. eexists _, (z, nkey n). split; [reflexivity|]. rewrite En. split; [exact Lz|]. split; [reflexivity|]. cbn [fst].
    assert (Hk2 := keyed_same _ _ _ C3 Hk1). constructor; cbn [mem roots hmin hnum]; [exact C2 | exact Hk2 | exact Hn'|]. split; [apply C4|]. eapply min_roots; eauto.
Qed.
Lemma decrease_inv h l a k k0 : Inv h l -> N.of_nat (length l) < 2 ^ 64 -> In (a, k0) l ->
  (lt k0 k = true /\ decrease_key lt h a k = Some (h, false)) \/
  (lt k0 k = false /\ exists h', decrease_key lt h a k = Some (h', true) /\ Inv h' (with_key a k l)).
Proof.
  intros [F Hk Hn Hm] Hs Ia. unfold decrease_key. destruct (Hk a k0 Ia) as (n & E & En). rewrite E. cbn [obind]. rewrite En. destruct (lt k0 k) eqn:Hl; [left; auto | right; split; [reflexivity|]].
  pose proof (fst_in _ _ _ Ia) as La. pose proof (f_ndL _ _ _ _ _ F) as DL.
  destruct (hmin h) as [b |] eqn:Eb; [|subst l; destruct Ia]. destruct Hm as (Rb & kb & Lb). pose proof Lb as (Ib & Mb).
  set (n' := mkN k (nparent n) (nkids n) (ndeg n) (nmark n)). set (m := put (mem h) a n').
  assert (Fk : forest m (roots h) (map fst l) None (Some a)) by (apply forest_key; try assumption; rewrite En; exact Hl).
  assert (Km : keyed m (with_key a k l)).
  { intros c j I. apply in_with in I. destruct I as [(Nc & I) | (-> & -> & I)]; unfold m.
    - rewrite put_ne by exact Nc. apply Hk; exact I.
    - rewrite put_eq. exists n'. auto. }
  assert (Ea : m a = Some n') by apply put_eq.
  (* whatever is done to the trees *)
  assert (Fin : forall R' m', forest m' R' (map fst l) None None -> keys_same m m' -> incl (roots h) R' -> (In a R' \/ lt k kb = false) ->
    exists h', (nb <- m' b ;; Some (mkH R' (Some (if negb (a =? b) && lt k (nkey nb) then a else b)) (hnum h) m', true)) = Some (h', true) /\ Inv h' (with_key a k l)).
  { intros R' m' F' S' Inc Ra. assert (Km' := keyed_same _ _ _ S' Km).
    assert (Old : a <> b -> lt k kb = false -> least lt (with_key a k l) (b, kb)).
    { intros Nab Hkb. split; [apply in_with; left; auto|]. intros (c & j) I. apply in_with in I. cbn [snd]. destruct I as [(_ & I) | (-> & -> & _)]; [apply (Mb _ I) | exact Hkb]. }
    assert (New : lt kb k = false -> least lt (with_key a k l) (a, k)).
    { intros Hkb. split; [apply in_with; right; auto|]. intros (c & j) I. apply in_with in I. cbn [snd]. destruct I as [(_ & I) | (-> & -> & _)]; [|apply lirr]. apply (lle _ kb); [exact Hkb | apply (Mb _ I)]. }
    assert (Nm : hnum h = N.of_nat (length (with_key a k l))) by (rewrite Hn; unfold with_key; rewrite map_length; reflexivity).
    destruct (N.eqb_spec a b) as [<- | Nab].
    - destruct (Km' a k) as (nb & B1 & B2); [apply in_with; right; auto|]. rewrite B1. cbn [obind negb andb]. eexists. split; [reflexivity|]. constructor; cbn [mem roots hmin hnum]; [rewrite fst_with; exact F' | exact Km' | exact Nm|].
      split; [apply Inc, Rb|]. exists k. apply New. rewrite (one_key l a kb k0 DL Ib Ia). exact Hl.
    - destruct (Km' b kb) as (nb & B1 & B2); [apply in_with; left; auto|]. rewrite B1. cbn [obind negb andb]. rewrite B2. eexists. split; [reflexivity|].
      constructor; cbn [mem roots hmin hnum]; [rewrite fst_with; exact F' | exact Km' | exact Nm|]. destruct (lt k kb) eqn:Hkb.
      + destruct Ra as [Ra | Ra]; [|discriminate]. split; [exact Ra|]. exists k. apply New, lasym, Hkb.
      + split; [apply Inc, Rb|]. exists kb. apply Old; auto. }
  destruct (nparent n) as [y |] eqn:Ey.
  - destruct (f_par _ _ _ _ _ F a n y La E Ey) as (Ly & ny & Y1 & Y2).
    assert (Nya : y <> a). { intros ->. destruct (f_rank _ _ _ _ _ F) as (rk & Hr). specialize (Hr a n a La E Ey). lia. }
    assert (Ym : m y = Some ny) by (unfold m; rewrite put_ne by exact Nya; exact Y1). rewrite Ym. cbn [obind]. destruct (lt k (nkey ny)) eqn:Hy.
    + destruct (cut_ok m (roots h) (map fst l) None (Some a) a y n' Fk La Ea eq_refl) as (m1 & C1 & C2 & C3 & C4); auto; [rewrite map_length; exact Hs|].
      rewrite C1. cbn [obind].
      destruct (cascade_ok (N.to_nat (hnum h)) m1 (roots h ++ [a]) (map fst l) y C2 C4) as (R' & m' & D1 & D2 & D3 & D4).
      { rewrite Hn, app_length, map_length. cbn [length]. lia. }
      { rewrite map_length; exact Hs. }
      rewrite D1. cbn [obind]. apply Fin; [exact D2 | eapply keys_trans; eauto | intros c X; apply D4, in_or_app; auto | left; apply D4, in_or_app; right; left; reflexivity].
    + cbn [obind]. apply Fin; [|apply keys_refl | apply incl_refl | right].
      * eapply forest_hx; [exact Fk | exact La | exact Ea|]. cbn [nparent n']. intros y' ny' X1 X2. replace y' with y in * by (cbn in X1; congruence). rewrite Ym in X2. injection X2 as <-. exact Hy.
      * destruct (in_fst _ _ Ly) as (ky & Iy). destruct (Hk y ky Iy) as (ny' & Z1 & Z2). replace ny' with ny in Z2 by congruence. subst ky. apply (lle _ (nkey ny)); [|exact Hy]. apply (Mb _ Iy).
  - cbn [obind]. apply Fin; [|apply keys_refl | apply incl_refl | left; apply (f_iff _ _ _ _ _ F a n La E); exact Ey].
    eapply forest_hx; [exact Fk | exact La | exact Ea|]. cbn [nparent n']. intros y' ny' X1. cbn in X1. congruence.
Qed.
Lemma delete_inv min_val h l a k0 : Inv h l -> N.of_nat (length l) < limit -> In (a, k0) l -> lt k0 min_val = false -> (forall b k, In (b, k) l -> b <> a -> lt min_val k = true) ->
  exists h', delete lt min_val h a = Some h' /\ Inv h' (without a l).
Proof.
  intros I Hs Ia Hl Ho. unfold delete. destruct (decrease_inv h l a min_val k0 I) as [(X & _) | (_ & h1 & D1 & D2)]; [unfold limit in Hs; clear - Hs; lia | exact Ia | congruence|].
  rewrite D1. cbn [obind fst]. assert (Len : length (with_key a min_val l) = length l) by (unfold with_key; apply map_length).
  destruct (extract_inv h1 _ D2) as [(X & _) | (h2 & p & E1 & E2 & _ & E4)]; [rewrite Len; exact Hs | rewrite <- Len in Hs; apply (f_equal (@length _)) in X; rewrite Len in X; destruct l; [destruct Ia | discriminate]|].
  rewrite E1. cbn [obind fst]. exists h2. split; [reflexivity|].
  assert (Pa : fst p = a).
  { destruct E2 as (Ip & Mp). destruct p as (c & j). cbn [fst]. destruct (N.eq_dec c a) as [-> | Nc]; [reflexivity|]. exfalso. apply in_with in Ip. destruct Ip as [(_ & Ip) | (Y & _)]; [|contradiction].
    specialize (Mp (a, min_val)). cbn [snd] in Mp. rewrite (Ho c j Ip Nc) in Mp. discriminate Mp. apply in_with. right. repeat split. eapply fst_in; eauto. }
  rewrite Pa in E4. replace (without a l) with (without a (with_key a min_val l)); [exact E4|]. clear. unfold without, with_key. induction l as [| (b & k) r IH]; [reflexivity|]. cbn [map filter fst].
  destruct (N.eqb_spec b a) as [-> | Nb]; cbn [fst].
  - rewrite N.eqb_refl. cbn [negb]. exact IH.
  - destruct (N.eqb_spec b a); [contradiction|]. cbn [negb]. rewrite IH. reflexivity.
Qed.
Lemma without_perm a k (l : live K) : NoDup (map fst l) -> In (a, k) l -> Permutation l ((a, k) :: without a l).
Proof.
  intros D I. apply in_split in I. destruct I as (l1 & l2 & ->). 
  assert (without a (l1 ++ (a, k) :: l2) = l1 ++ l2) as ->; [|apply Permutation_sym, Permutation_middle].
  rewrite map_app in D. cbn [map fst] in D. apply NoDup_remove_2 in D. unfold without. rewrite filter_app. cbn [filter fst]. rewrite N.eqb_refl. cbn [negb].
  assert (Go : forall t : live K, ~ In a (map fst t) -> filter (fun p => negb (fst p =? a)) t = t).
  { induction t as [| (b & j) r IH]; intros X; [reflexivity|]. cbn [filter fst]. destruct (N.eqb_spec b a) as [-> | Nb]; [destruct X; left; reflexivity|]. cbn [negb]. f_equal. apply IH. intros Y; apply X; right; exact Y. }
  rewrite !Go; [reflexivity | |]; intros X; apply D, in_or_app; auto.
Qed.
Lemma free_inv fuel : forall h l, Inv h l -> N.of_nat (length l) < limit -> (length l <= fuel)%nat ->
  exists h' l', free_loop lt fuel h = Some (h', l') /\ Inv h' [] /\ Permutation l l' /\ StronglySorted (fun p q => lt (snd q) (snd p) = false) l'.
Proof.
  induction fuel as [| fuel IH]; intros h l I Hs Hf; cbn [free_loop]; destruct (extract_inv h l I Hs) as [(-> & E) | (h1 & (z & k) & E1 & E2 & _ & E4)].
  - rewrite E. cbn [obind snd]. exists h, []. repeat (split; [solve [auto using Permutation_refl]|]). constructor.
  - destruct l; [destruct E2 as ([] & _) | cbn in Hf; lia].
  - rewrite E. cbn [obind snd]. exists h, []. repeat (split; [solve [auto using Permutation_refl]|]). constructor.
  - rewrite E1. cbn [obind snd fst]. cbn [fst] in E4. pose proof (without_perm z k l (f_ndL _ _ _ _ _ (i_forest _ _ I)) (proj1 E2)) as P. pose proof (Permutation_length P) as PL. cbn [length] in PL.
    destruct (IH h1 (without z l) E4) as (h' & l' & F1 & F2 & F3 & F4); [clear - PL Hs; lia | clear - PL Hf; lia|]. rewrite F1. cbn [obind fst snd]. exists h', ((z, k) :: l'). split; [reflexivity|]. split; [exact F2|].
    split; [rewrite P; constructor; exact F3|]. constructor; [exact F4|]. apply Forall_forall. intros q Hq. apply (proj2 E2). apply (Permutation_in _ (Permutation_sym F3)) in Hq. destruct q as (c & j). apply in_without in Hq. apply Hq.
Qed.
Lemma step_inv min_val h l o : Inv h l -> N.of_nat (length l) + 1 < limit -> legal lt min_val l o ->
  exists h' x l', step lt min_val h o = Some (h', x) /\ allowed lt l o x l' /\ Inv h' l' /\ (length l' <= length l + 1)%nat.
Proof.
  intros I Hs Lg. assert (Hs' : N.of_nat (length l) < limit) by (clear - Hs; lia). assert (Lw : forall a, (length (without a l) <= length l)%nat).
  { intros a. unfold without. clear. induction l as [| p r IH]; cbn [filter]; [lia|]. destruct (negb (fst p =? a)); cbn [length]; lia. }
  destruct o as [a k | | | a k | a | |]; cbn [step legal] in *.
  - destruct (insert_inv h l a k I) as (h' & E & I'); [unfold limit in Hs; clear - Hs; lia | exact Lg|]. rewrite E. cbn [obind]. exists h', ODone, (l ++ [(a, k)]). split; [reflexivity|]. split; [constructor|]. split; [exact I'|]. rewrite app_length. cbn. lia.
  - destruct (extract_inv h l I Hs') as [(-> & E) | (h1 & p & E1 & E2 & _ & E4)].
    + rewrite E. cbn [obind fst snd]. exists h, (OGot None), []. split; [reflexivity|]. split; [constructor|]. split; [exact I|]. cbn; lia.
    + rewrite E1. cbn [obind fst snd]. exists h1, (OGot (Some p)), (without (fst p) l). split; [reflexivity|]. split; [constructor; exact E2|]. split; [exact E4|]. specialize (Lw (fst p)). lia.
  - unfold minimum. pose proof (i_min _ _ I) as Hm. destruct (hmin h) as [z |].
    + destruct Hm as (_ & k & Lk). destruct (i_keys _ _ I z k (proj1 Lk)) as (n & E & En). rewrite E. cbn [obind]. exists h, (OGot (Some (z, nkey n))), l. split; [reflexivity|]. rewrite En. split; [constructor; exact Lk|]. split; [exact I | lia].
    + subst l. cbn [obind]. exists h, (OGot None), []. split; [reflexivity|]. split; [constructor|]. split; [exact I | cbn; lia].
  - destruct (in_fst _ _ Lg) as (k0 & Ia). destruct (decrease_inv h l a k k0 I) as [(X & E) | (X & h1 & E & I1)]; [unfold limit in Hs; clear - Hs; lia | exact Ia | |].
    + rewrite E. cbn [obind fst snd]. exists h, (OStatus false), l. split; [reflexivity|]. split; [econstructor; eauto|]. split; [exact I | lia].
    + rewrite E. cbn [obind fst snd]. exists h1, (OStatus true), (with_key a k l). split; [reflexivity|]. split; [econstructor; eauto|]. split; [exact I1|]. unfold with_key. rewrite map_length. lia.
  - destruct Lg as ((k0 & Ia & Hl) & Ho). destruct (delete_inv min_val h l a k0 I Hs' Ia Hl Ho) as (h' & E & I'). rewrite E. cbn [obind]. exists h', ODone, (without a l). split; [reflexivity|]. split; [constructor|]. split; [exact I'|]. specialize (Lw a). lia.
  - destruct (free_inv (N.to_nat (hnum h)) h l I Hs') as (h' & l' & E & I' & P & So); [rewrite (i_num _ _ I); lia|]. rewrite E. cbn [obind fst snd]. exists h', (OAll l'), []. split; [reflexivity|]. split; [constructor; assumption|]. split; [exact I' | cbn; lia].
  - exists h, (ONum (hnum h)), l. split; [reflexivity|]. rewrite (i_num _ _ I). split; [constructor|]. split; [exact I | lia].
Qed.
Lemma run_inv min_val ops : forall h l, Inv h l -> N.of_nat (length l + length ops) < limit -> safe lt min_val l ops ->
  exists h' outs, run lt min_val h ops = Some (h', outs) /\ accepts lt l ops outs.
Proof.
  induction ops as [| o ops IH]; intros h l I Hs Sf; cbn [run].
  - exists h, []. split; [reflexivity | exact Logic.I].
  - destruct Sf as (Lg & Sf). cbn [length] in Hs. destruct (step_inv min_val h l o I) as (h' & x & l' & E & A & I' & Hl'); [clear - Hs; lia | exact Lg|].
    rewrite E. cbn [obind fst snd]. destruct (IH h' l' I') as (h2 & outs & R1 & R2); [clear - Hs Hl'; lia | eapply Sf; exact A|]. rewrite R1. cbn [obind fst snd]. exists h2, (x :: outs). split; [reflexivity|]. cbn [accepts]. eauto.
Qed.
Lemma run_ok min_val ops : N.of_nat (length ops) < limit -> safe lt min_val [] ops -> exists h' outs, run lt min_val heap_new ops = Some (h', outs) /\ accepts lt [] ops outs.
Proof. intros Hs Sf. apply run_inv; [apply inv_new | exact Hs | exact Sf]. Qed.
End Proofs.
