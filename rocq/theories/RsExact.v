(** * When Reed-Solomon decoding succeeds *)

From Coq Require Import List Arith NArith Lia Bool Ring Ring_theory.
From Coq.Strings Require Import Byte.
Require Import ZifyBool ZifyNat ZifyN.
From Verif Require Import Base GaussModel GaussSpec GaussProofs RsModel RsSpec GfProofs RsProofs.
Import ListNotations.
Local Open Scope nat_scope.

Add Ring gf_r2 : gf_ring.

Lemma bsum_add n f h : bsum n (fun k => gf_add (f k) (h k)) = gf_add (bsum n f) (bsum n h).
Proof. exact (sum_add byte x00 x01 gf_add gf_add gf_mul (fun x => x) gf_ring n f h). Qed.

Lemma bsum_zero n f : (forall k, k < n -> f k = x00) -> bsum n f = x00.
Proof. exact (sum_zero byte x00 x01 gf_add gf_add gf_mul (fun x => x) gf_ring n f). Qed.

Lemma byte_dec (a b : byte) : {a = b} + {a <> b}.
Proof.
  destruct (N.eq_dec (to_N a) (to_N b)) as [E|E]; [left; apply byte_eq, E|right; congruence].
Qed.

Lemma add_zero_eq a b : gf_add a b = x00 -> a = b.
Proof.
  intros H. transitivity (gf_add (gf_add a b) b).
  - rewrite <- gf_add_assoc, gf_add_same, gf_add_comm. symmetry. apply gf_add_0_l.
  - rewrite H. apply gf_add_0_l.
Qed.

Lemma data_ext len n d1 d2 : length d1 = n * len -> length d2 = n * len ->
  (forall i c, i < n -> c < len -> bat len d1 i c = bat len d2 i c) -> d1 = d2.
Proof.
  intros H1 H2 H. rewrite <- (rows_concat n len d1 H1), <- (rows_concat n len d2 H2). f_equal.
  apply (mat_ext _ _ n len); [apply rows_shape, H1|apply rows_shape, H2|].
  intros i c Hi Hc. unfold GaussSpec.entry. rewrite !rows_nth by exact Hi. apply H; assumption.
Qed.

(** ** Refusal means that the blocks used do not determine the data *)

Definition shifted (len n : nat) (data : list byte) (x : nat -> byte) : list byte :=
  concat (map (fun i => map (fun b => gf_add b (x i)) (block len data i)) (seq 0 n)).

Lemma shifted_shape len n data x : length data = n * len ->
  shape byte (map (fun i => map (fun b => gf_add b (x i)) (block len data i)) (seq 0 n)) n len.
Proof.
  intros H. split; [rewrite map_length; apply seq_length|].
  apply Forall_forall. intros r Hr. apply in_map_iff in Hr. destruct Hr as (i & <- & Hi).
  apply in_seq in Hi. rewrite map_length. apply block_length with (m := n); [exact H|lia].
Qed.

Lemma shifted_bat len n data x i c : length data = n * len -> i < n -> c < len ->
  bat len (shifted len n data x) i c = gf_add (bat len data i c) (x i).
Proof.
  intros H Hi Hc. unfold bat at 1, shifted.
  rewrite (block_concat _ n) by (try apply shifted_shape; assumption).
  set (f := fun i => map (fun b => gf_add b (x i)) (block len data i)).
  rewrite (nth_indep _ _ (f 0)) by (rewrite map_length, seq_length; exact Hi).
  rewrite map_nth, seq_nth by exact Hi. unfold f. cbn [Nat.add].
  set (h := fun b => gf_add b (x i)).
  rewrite (nth_indep _ _ (h x00))
    by (rewrite map_length, (block_length len data i n) by assumption; exact Hc).
  rewrite map_nth. reflexivity.
Qed.

Lemma rs_refuses len n k data r v :
  length data = n * len -> rs_encode data len n k = Some r ->
  received len (n + k) (rr_data r) v -> n <= survivors v ->
  (rs_decode v len n k = Some None <->
   exists data' r', length data' = n * len /\ data' <> data /\
     rs_encode data' len n k = Some r' /\
     forall i, In i (firstn n (arrived v)) -> block len (rr_data r') i = block len (rr_data r) i).
Proof.
  intros Hd He Hr Hs. apply rs_encode_some in He. destruct He as (Hlen & Hn & Hk & ->).
  cbn [rr_data] in *. rewrite <- arr_arrived. fold (used n v).
  assert (Hin : forall s, In s (used n v) -> s < n + k).
  { intros s H. apply used_in in H. destruct Hr. lia. }
  destruct (rs_decode_cases len n k data v Hn Hk Hd Hr Hs) as [[E1 E2]|[E1 E2]].
  - split; [rewrite E2; discriminate|]. intros (data' & r' & Hd' & Hne & He' & Hbl).
    exfalso. apply Hne. apply rs_encode_some in He'. destruct He' as (_ & _ & _ & ->).
    cbn [rr_data] in Hbl. apply (data_ext len n); [exact Hd'|exact Hd|].
    intros i c Hi Hc.
    destruct (byte_dec (bat len data' i c) (bat len data i c)) as [E|E]; [exact E|exfalso].
    apply E1. apply (rs_invert_none n v Hs).
    exists (fun l => gf_add (bat len data' l c) (bat len data l c)). split.
    + apply surv_kernel; [exact Hs|]. intros s Hsu.
      rewrite (sum_ext byte x00 gf_add n _
        (fun l => gf_add (gf_mul (co n s l) (bat len data' l c)) (gf_mul (co n s l) (bat len data l c))))
        by (intros; ring).
      rewrite bsum_add.
      rewrite <- (enc_entry len n k data' s c Hd' (Hin s Hsu) Hc).
      rewrite <- (enc_entry len n k data s c Hd (Hin s Hsu) Hc).
      unfold bat. rewrite (Hbl s Hsu). apply gf_add_same.
    + exists i. split; [exact Hi|]. intros H0. apply E, add_zero_eq, H0.
  - split; [|intros _; exact E2]. intros _.
    apply (rs_invert_none n v Hs) in E1. destruct E1 as (x & Hx & i & Hi & Hxi).
    pose proof (proj1 (surv_kernel n v x Hs) Hx) as Hx'. clear Hx. rename Hx' into Hx.
    assert (Hd' : length (shifted len n data x) = n * len).
    { apply concat_length', shifted_shape, Hd. }
    exists (shifted len n data x), (mkRR (enc_of len n k (shifted len n data x)) (n + k) ((n + k) * len)).
    split; [exact Hd'|]. split; [|split].
    + intros E. apply Hxi.
      pose proof (shifted_bat len n data x i 0 Hd Hi Hlen) as B. rewrite E in B.
      symmetry. apply add_zero_eq.
      transitivity (gf_add (bat len data i 0) (bat len data i 0)); [|apply gf_add_same].
      rewrite B at 2. rewrite gf_add_assoc, gf_add_same. reflexivity.
    + unfold rs_encode. destruct (Nat.eqb_spec len 0), (Nat.eqb_spec n 0), (Nat.eqb_spec k 0); try lia.
      reflexivity.
    + cbn [rr_data]. intros s Hsu. apply block_ext.
      * apply enc_block_length; [exact Hd'|apply Hin, Hsu].
      * apply enc_block_length; [exact Hd|apply Hin, Hsu].
      * intros c Hc. rewrite !enc_entry by (try assumption; apply Hin, Hsu).
        rewrite (sum_ext byte x00 gf_add n _
          (fun l => gf_add (gf_mul (co n s l) (bat len data l c)) (gf_mul (co n s l) (x l)))).
        2:{ intros l Hl. rewrite shifted_bat by assumption. ring. }
        rewrite bsum_add, (Hx s Hsu). ring.
Qed.

(** ** Sums over few indices *)

Lemma bsum_shift n f : bsum (S n) f = gf_add (f 0) (bsum n (fun k => f (S k))).
Proof.
  induction n as [|n IH]; [cbn [sum]; ring|].
  change (bsum (S (S n)) f) with (gf_add (bsum (S n) f) (f (S n))). rewrite IH. cbn [sum]. ring.
Qed.

Lemma bsum_take n c f : c < n ->
  bsum n f = gf_add (f c) (bsum n (fun k => if Nat.eqb k c then x00 else f k)).
Proof.
  induction n as [|n IH]; intros H; [lia|]. cbn [sum].
  destruct (Nat.eqb_spec n c) as [->|Hne].
  - rewrite (sum_ext byte x00 gf_add c f (fun k => if Nat.eqb k c then x00 else f k)); [ring|].
    intros k Hk. destruct (Nat.eqb_spec k c); [lia|reflexivity].
  - rewrite IH by lia. ring.
Qed.

Lemma bsum_support n cs f : NoDup cs -> (forall c, In c cs -> c < n) ->
  (forall c, c < n -> ~ In c cs -> f c = x00) ->
  bsum n f = bsum (length cs) (fun i => f (nth i cs 0)).
Proof.
  revert f. induction cs as [|c cs IH]; intros f Hnd Hlt H0.
  - apply bsum_zero. intros c Hc. apply H0; [exact Hc|intros []].
  - inversion Hnd as [|? ? Hc Hnd']; subst. cbn [length]. rewrite bsum_shift. cbn [nth].
    rewrite (bsum_take n c) by (apply Hlt; left; reflexivity). f_equal.
    rewrite (IH (fun k => if Nat.eqb k c then x00 else f k)).
    + apply sum_ext. intros i Hi. cbn [nth]. destruct (Nat.eqb_spec (nth i cs 0) c) as [E|]; [|reflexivity].
      exfalso. apply Hc. rewrite <- E. apply nth_In, Hi.
    + exact Hnd'.
    + intros c' Hin. apply Hlt. right. exact Hin.
    + intros c' Hc' Hni. destruct (Nat.eqb_spec c' c) as [|Hne]; [reflexivity|].
      apply H0; [exact Hc'|]. intros [E|Hin]; [congruence|contradiction].
Qed.

(** ** Sublists *)

Fixpoint subs {A : Type} (l : list A) : list (list A) :=
  match l with
  | [] => [[]]
  | x :: l' => map (cons x) (subs l') ++ subs l'
  end.

Lemma subs_nil {A} (l : list A) : In [] (subs l).
Proof. induction l; cbn; [auto|]. apply in_or_app. right. exact IHl. Qed.

Lemma subs_filter {A} (f : A -> bool) l : In (filter f l) (subs l).
Proof.
  induction l; cbn; [auto|]. apply in_or_app. destruct (f a).
  - left. apply in_map, IHl.
  - right. exact IHl.
Qed.

Lemma subs_firstn {A} (l s : list A) q : In s (subs l) -> In (firstn q s) (subs l).
Proof.
  revert s q. induction l as [|x l IH]; intros s q H; cbn in *.
  - destruct H as [<-|[]]. rewrite firstn_nil. auto.
  - apply in_or_app. apply in_app_or in H. destruct H as [H|H].
    + apply in_map_iff in H. destruct H as (s' & <- & H). destruct q; cbn [firstn].
      * right. apply subs_nil.
      * left. apply in_map, IH, H.
    + right. apply IH, H.
Qed.

Lemma subs_app {A} (l1 l2 s : list A) : In s (subs l1) -> In s (subs (l1 ++ l2)).
Proof.
  revert s. induction l1 as [|x l1 IH]; intros s H; cbn in *.
  - destruct H as [<-|[]]. apply subs_nil.
  - apply in_or_app. apply in_app_or in H. destruct H as [H|H].
    + left. apply in_map_iff in H. destruct H as (s' & <- & H). apply in_map, IH, H.
    + right. apply IH, H.
Qed.

Lemma subs_seq n m s : n <= m -> In s (subs (seq 0 n)) -> In s (subs (seq 0 m)).
Proof.
  intros H Hs. replace m with (n + (m - n)) by lia. rewrite seq_app. apply subs_app, Hs.
Qed.

(** ** Minors *)

(** The square part of the parity coefficients for the lost blocks [cs] and the
    parity blocks [rs]. *)
Definition minor (rs cs : list nat) : rs_mat := map (fun r => map (coef r) cs) rs.

Definition regular (rs cs : list nat) : Prop :=
  forall x : nat -> byte,
    (forall r, In r rs -> bsum (length cs) (fun i => gf_mul (coef r (nth i cs 0)) (x i)) = x00) ->
    forall i, i < length cs -> x i = x00.

Lemma minor_regular rs cs : length rs = length cs ->
  snd (rs_invert (length cs) (minor rs cs)) <> None -> regular rs cs.
Proof.
  intros HL E.
  assert (Sm : shape byte (minor rs cs) (length cs) (length cs)).
  { split; [unfold minor; rewrite map_length; exact HL|].
    apply Forall_forall. intros l Hl. unfold minor in Hl. apply in_map_iff in Hl.
    destruct Hl as (r & <- & _). apply map_length. }
  destruct (rs_invert (length cs) (minor rs cs)) as [o' [d'|]] eqn:Ei; cbn in E; [|congruence].
  apply (invert_correct byte x00 x01 gf_add gf_add gf_mul gf_div (fun x => x) gf_better gf_tiny
           gf_ring gf_div_mul gf_div_one gf_tiny_ne) in Ei; [|exact Sm].
  apply (inverse_regular byte x00 x01 gf_add gf_add gf_mul (fun x => x) gf_ring) in Ei.
  intros x Hx i Hi. destruct (byte_dec (x i) x00) as [|Hne]; [assumption|exfalso].
  apply Ei. exists x. split; [|exists i; auto].
  intros j Hj.
  assert (Hin : In (nth j rs 0) rs) by (apply nth_In; lia).
  etransitivity; [|exact (Hx _ Hin)]. apply sum_ext.
  intros q Hq. unfold GaussSpec.entry, minor.
  set (f := fun r => map (coef r) cs).
  rewrite (nth_indep _ _ (f 0)) by (rewrite map_length; lia). rewrite map_nth. unfold f.
  rewrite (nth_indep _ _ (coef (nth j rs 0) 0)) by (rewrite map_length; lia). rewrite map_nth.
  reflexivity.
Qed.

Definition is_some {A} (o : option A) : bool := match o with Some _ => true | None => false end.

(** All minors of the first [k] rows and [n] columns. *)
Definition minors_ok (n k : nat) : bool :=
  forallb (fun cs =>
    forallb (fun rs =>
      if Nat.eqb (length rs) (length cs)
      then is_some (snd (rs_invert (length cs) (minor rs cs))) else true)
    (subs (seq 0 k))) (filter (fun cs => Nat.leb (length cs) k) (subs (seq 0 n))).

Lemma minors_regular n k rs cs : minors_ok n k = true ->
  In cs (subs (seq 0 n)) -> In rs (subs (seq 0 k)) -> length rs = length cs -> regular rs cs.
Proof.
  intros H Hc Hr HL. unfold minors_ok in H. rewrite forallb_forall in H.
  assert (Hk : length rs <= k).
  { clear - Hr. rewrite <- (seq_length k 0). revert rs Hr. generalize (seq 0 k).
    induction l as [|a l IH]; intros rs H; cbn in *; [destruct H as [<-|[]]; cbn; lia|].
    apply in_app_or in H. destruct H as [H|H].
    - apply in_map_iff in H. destruct H as (s & <- & H). specialize (IH s H). cbn. lia.
    - specialize (IH rs H). lia. }
  assert (Hc' : In cs (filter (fun cs => Nat.leb (length cs) k) (subs (seq 0 n)))).
  { apply filter_In. split; [exact Hc|]. apply Nat.leb_le. lia. }
  specialize (H cs Hc'). rewrite forallb_forall in H. specialize (H rs Hr).
  rewrite HL, Nat.eqb_refl in H. apply minor_regular; [exact HL|].
  destruct (snd (rs_invert (length cs) (minor rs cs))); [discriminate|discriminate H].
Qed.

(** ** From minors to the decoder *)

Definition lost (n : nat) (v : list (option (list byte))) : list nat :=
  filter (fun i => negb (present (nth i v None))) (seq 0 n).

(** The parity blocks used. *)
Definition par (n : nat) (v : list (option (list byte))) : list nat :=
  firstn (length (lost n v)) (arr 0 (skipn n v)).

Lemma firstn_nth {A} (l : list A) q i d : i < q -> nth i (firstn q l) d = nth i l d.
Proof.
  revert q i; induction l; intros [|q] i H; cbn; try lia; [destruct i; reflexivity|].
  destruct i; [reflexivity|]. apply IHl. lia.
Qed.

Lemma arr_lost n v : n <= length v -> length (arr 0 (firstn n v)) + length (lost n v) = n.
Proof.
  intros H. rewrite arr_filter, firstn_length, Nat.min_l by exact H. unfold lost.
  rewrite (filter_ext_in _ (fun i => present (nth i v None))).
  2:{ intros j Hj. apply in_seq in Hj. rewrite Nat.sub_0_r, firstn_nth by lia. reflexivity. }
  rewrite <- (seq_length n 0) at 3. generalize (seq 0 n). clear.
  induction l as [|a l IH]; [reflexivity|]. cbn [filter].
  destruct (present (nth a v None)); cbn [negb length]; lia.
Qed.

Lemma used_eq n v : n <= length v ->
  used n v = arr 0 (firstn n v) ++ map (fun x => n + x) (par n v).
Proof.
  intros H. rewrite used_split. unfold par. pose proof (arr_lost n v H).
  replace (n - length (arr 0 (firstn n v))) with (length (lost n v)) by lia. reflexivity.
Qed.

Lemma par_length n v : n <= length v -> n <= survivors v -> length (par n v) = length (lost n v).
Proof.
  intros H Hs. pose proof (used_length n v Hs) as L. rewrite used_eq in L by exact H.
  rewrite app_length, map_length in L. pose proof (arr_lost n v H). lia.
Qed.

Lemma lost_subs n v : In (lost n v) (subs (seq 0 n)).
Proof. apply subs_filter. Qed.

Lemma par_subs n k v : length v = n + k -> In (par n v) (subs (seq 0 k)).
Proof.
  intros H. unfold par. apply subs_firstn. rewrite arr_filter, skipn_length.
  replace (length v - n) with k by lia. apply subs_filter.
Qed.

Lemma lost_in n v c : In c (lost n v) <-> c < n /\ nth c v None = None.
Proof.
  unfold lost. rewrite filter_In, in_seq. split; intros [H1 H2].
  - split; [lia|]. destruct (nth c v None); [discriminate H2|reflexivity].
  - rewrite H2. split; [lia|reflexivity].
Qed.

Lemma lost_nodup n v : NoDup (lost n v).
Proof. apply NoDup_filter, seq_NoDup. Qed.

Lemma data_in n v i : n <= length v -> i < n -> nth i v None <> None -> In i (arr 0 (firstn n v)).
Proof.
  intros H Hi Hp. apply arr_in. rewrite firstn_length, Nat.min_l, Nat.sub_0_r by exact H.
  rewrite firstn_nth by exact Hi. split; [lia|exact Hp].
Qed.

Lemma kernel_lost n k v x : length v = n + k -> n <= survivors v ->
  in_kernel byte x00 gf_add gf_mul (surv_mat n v) n x ->
  (forall i, i < n -> ~ In i (lost n v) -> x i = x00) /\
  forall r, In r (par n v) ->
    bsum (length (lost n v)) (fun i => gf_mul (coef r (nth i (lost n v) 0)) (x (nth i (lost n v) 0))) = x00.
Proof.
  intros HL Hs Hx0. pose proof (proj1 (surv_kernel n v x Hs) Hx0) as Hx. clear Hx0.
  assert (H1 : forall i, i < n -> ~ In i (lost n v) -> x i = x00).
  { intros i Hi Hni.
    assert (Hin : In i (used n v)).
    { rewrite used_eq by lia. apply in_or_app. left. apply data_in; [lia|exact Hi|].
      intros E. apply Hni, lost_in. auto. }
    etransitivity; [|exact (Hx i Hin)]. symmetry.
    rewrite (sum_ext byte x00 gf_add n _ (fun l => gf_mul (if Nat.eqb i l then x01 else x00) (x l))).
    - exact (sum_delta_l byte x00 x01 gf_add gf_add gf_mul (fun x => x) gf_ring n i x Hi).
    - intros l Hl. rewrite co_data_entry by assumption. reflexivity. }
  split; [exact H1|]. intros r Hr.
  assert (Hin : In (n + r) (used n v)).
  { rewrite used_eq by lia. apply in_or_app. right. apply in_map_iff. exists r. auto. }
  etransitivity; [|exact (Hx (n + r) Hin)]. symmetry.
  rewrite (sum_ext byte x00 gf_add n _ (fun l => gf_mul (coef r l) (x l)))
    by (intros; rewrite co_parity_entry by assumption; reflexivity).
  apply (bsum_support n (lost n v) (fun l => gf_mul (coef r l) (x l))).
  - apply lost_nodup.
  - intros c Hc. apply lost_in in Hc. apply Hc.
  - intros c Hc Hni. rewrite (H1 c Hc Hni). apply gf_mul_0_r.
Qed.

Lemma regular_not_sing n k v : length v = n + k -> n <= survivors v ->
  regular (par n v) (lost n v) -> ~ sing (surv_mat n v) n.
Proof.
  intros HL Hs HR (x & Hx & i & Hi & Hne).
  destruct (kernel_lost n k v x HL Hs Hx) as [H1 H2]. apply Hne.
  destruct (in_dec Nat.eq_dec i (lost n v)) as [Hin|Hni]; [|apply H1; assumption].
  apply In_nth with (d := 0) in Hin. destruct Hin as (q & Hq & <-).
  exact (HR (fun q => x (nth q (lost n v) 0)) H2 q Hq).
Qed.

(** ** Which sizes are safe *)

Definition safe (n k : nat) : bool :=
  Nat.eqb k 1 || Nat.eqb n 1 || (Nat.eqb k 2 && Nat.leb n 255)
  || (Nat.eqb k 3 && Nat.leb n 10) || (Nat.eqb k 4 && Nat.leb n 6)
  || (Nat.leb k 8 && Nat.leb n 3).

Lemma minors_10_3 : minors_ok 10 3 = true.
Proof. vm_compute. reflexivity. Qed.
Lemma minors_6_4 : minors_ok 6 4 = true.
Proof. vm_compute. reflexivity. Qed.
Lemma minors_3_8 : minors_ok 3 8 = true.
Proof. vm_compute. reflexivity. Qed.

Lemma coef_0 c : coef 0 c = x01.
Proof. unfold coef. change (N.of_nat 0 mod 2 ^ 64)%N with 0%N. rewrite N.pow_0_r. reflexivity. Qed.

Lemma coef_1 c : coef 1 c = b8 (N.of_nat (S c)).
Proof. unfold coef. change (N.of_nat 1 mod 2 ^ 64)%N with 1%N. rewrite N.pow_1_r. reflexivity. Qed.

Lemma coef_one j : coef j 0 = x01.
Proof. unfold coef. change (N.of_nat 1) with 1%N. rewrite N.pow_1_l. reflexivity. Qed.

Lemma regular_nil rs : regular rs [].
Proof. intros x _ i Hi. cbn in Hi. lia. Qed.

Lemma regular_single r c : coef r c <> x00 -> regular [r] [c].
Proof.
  intros H x Hx i Hi. cbn in Hi. replace i with 0 by lia.
  specialize (Hx r (or_introl eq_refl)). cbn [length sum nth] in Hx.
  rewrite gf_add_0_l in Hx. apply gf_integral in Hx. destruct Hx; [contradiction|assumption].
Qed.

Lemma regular_pair c1 c2 : c1 < c2 < 255 -> regular [0; 1] [c1; c2].
Proof.
  intros H x Hx.
  pose proof (Hx 0 (or_introl eq_refl)) as E0. pose proof (Hx 1 (or_intror (or_introl eq_refl))) as E1.
  cbn [length sum nth] in E0, E1. rewrite !coef_0 in E0. rewrite !coef_1 in E1.
  set (a := b8 (N.of_nat (S c1))) in *. set (b := b8 (N.of_nat (S c2))) in *.
  assert (Hab : a <> b).
  { intros E. apply (f_equal to_N) in E. unfold a, b in E. rewrite !to_N_b8_small in E by lia. lia. }
  assert (X : x 0 = x 1).
  { apply add_zero_eq. etransitivity; [|exact E0]. ring. }
  rewrite X in E1.
  assert (M : gf_mul (gf_add a b) (x 1) = x00) by (etransitivity; [|exact E1]; ring).
  apply gf_integral in M. destruct M as [M|M]; [exfalso; apply Hab, add_zero_eq, M|].
  intros [|[|i]] Hi; cbn in Hi; [congruence|exact M|lia].
Qed.

Lemma subs_seq_lt n s c : In s (subs (seq 0 n)) -> In c s -> c < n.
Proof.
  intros H Hc. enough (G : forall l, In s (subs l) -> In c l).
  { specialize (G _ H). apply in_seq in G. lia. }
  clear H. intros l. revert s Hc. induction l as [|a l IH]; intros s Hc H; cbn in *.
  - destruct H as [<-|[]]. contradiction.
  - apply in_app_or in H. destruct H as [H|H].
    + apply in_map_iff in H. destruct H as (s' & <- & H). destruct Hc as [<-|Hc]; [auto|].
      right. apply (IH s' Hc H).
    + right. apply (IH s Hc H).
Qed.

Lemma subs_seq_sorted i n s : In s (subs (seq i n)) ->
  match s with
  | a :: b :: _ => a < b
  | _ => True
  end.
Proof.
  revert i s. induction n as [|n IH]; intros i s H; cbn in H.
  - destruct H as [<-|[]]. exact I.
  - apply in_app_or in H. destruct H as [H|H]; [|apply (IH (S i)), H].
    apply in_map_iff in H. destruct H as (s' & <- & H). destruct s' as [|b s']; [exact I|].
    enough (G : In b (seq (S i) n)) by (apply in_seq in G; lia).
    assert (Hb : In b (b :: s')) by (left; reflexivity). revert Hb H. generalize (b :: s') (seq (S i) n).
    clear. intros s l. revert s. induction l as [|a l IH]; intros s Hb H; cbn in *.
    + destruct H as [<-|[]]. contradiction.
    + apply in_app_or in H. destruct H as [H|H].
      * apply in_map_iff in H. destruct H as (s' & <- & H). destruct Hb as [<-|Hb]; [auto|].
        right. apply (IH s' Hb H).
      * right. apply (IH s Hb H).
Qed.

Lemma safe_regular n k rs cs : safe n k = true ->
  In cs (subs (seq 0 n)) -> In rs (subs (seq 0 k)) -> length rs = length cs -> regular rs cs.
Proof.
  intros H Hc Hr HL. unfold safe in H. rewrite !orb_true_iff, !andb_true_iff in H.
  destruct H as [[[[[H|H]|[H H']]|[H H']]|[H H']]|[H H']].
  - apply Nat.eqb_eq in H. subst k. cbn in Hr. destruct Hr as [<-|[<-|[]]].
    + destruct cs as [|c [|c2 cs]]; try discriminate HL.
      apply regular_single. rewrite coef_0. discriminate.
    + destruct cs as [|c cs]; try discriminate HL. apply regular_nil.
  - apply Nat.eqb_eq in H. subst n. cbn in Hc. destruct Hc as [<-|[<-|[]]].
    + destruct rs as [|r [|r2 rs]]; try discriminate HL.
      apply regular_single. rewrite coef_one. discriminate.
    + apply regular_nil.
  - apply Nat.eqb_eq in H. apply Nat.leb_le in H'. subst k.
    assert (HC : forall c, In c cs -> c < 255) by (intros c Hin; pose proof (subs_seq_lt n cs c Hc Hin); lia).
    pose proof (subs_seq_sorted 0 n cs Hc) as HSo.
    cbn in Hr. destruct Hr as [<-|[<-|[<-|[<-|[]]]]]; destruct cs as [|c [|c2 [|c3 cs]]]; try discriminate HL.
    + apply regular_pair. split; [exact HSo|]. apply HC. right. left. reflexivity.
    + apply regular_single. rewrite coef_0. discriminate.
    + apply regular_single. rewrite coef_1. intros E. apply (f_equal to_N) in E.
      specialize (HC c (or_introl eq_refl)). rewrite to_N_b8_small in E by lia.
      change (to_N x00) with 0%N in E. lia.
    + apply regular_nil.
  - apply Nat.eqb_eq in H. apply Nat.leb_le in H'. subst k.
    apply (minors_regular 10 3 rs cs minors_10_3); [|exact Hr|exact HL].
    apply (subs_seq n 10 cs H' Hc).
  - apply Nat.eqb_eq in H. apply Nat.leb_le in H'. subst k.
    apply (minors_regular 6 4 rs cs minors_6_4); [|exact Hr|exact HL].
    apply (subs_seq n 6 cs H' Hc).
  - apply Nat.leb_le in H. apply Nat.leb_le in H'.
    apply (minors_regular 3 8 rs cs minors_3_8); [| |exact HL].
    + apply (subs_seq n 3 cs H' Hc).
    + apply (subs_seq k 8 rs H Hr).
Qed.

Lemma rs_recover len n k data r v :
  safe n k = true -> length data = n * len -> rs_encode data len n k = Some r ->
  received len (n + k) (rr_data r) v -> n <= survivors v ->
  rs_decode v len n k = Some (Some (mkRR data n (n * len))).
Proof.
  intros Hsafe Hd He Hr Hs. apply rs_encode_some in He. destruct He as (Hlen & Hn & Hk & ->).
  cbn [rr_data] in *. pose proof (proj1 Hr) as HL.
  destruct (rs_decode_cases len n k data v Hn Hk Hd Hr Hs) as [[E1 E2]|[E1 E2]]; [exact E2|].
  exfalso. apply (rs_invert_none n v Hs) in E1. revert E1. apply (regular_not_sing n k v HL Hs).
  apply (safe_regular n k); [exact Hsafe|apply lost_subs|apply par_subs, HL|].
  apply par_length; lia.
Qed.

(** ** Outside, something is always lost *)

Definition memb (x : nat) (l : list nat) : bool := existsb (Nat.eqb x) l.

Lemma memb_in x l : memb x l = true <-> In x l.
Proof.
  unfold memb. rewrite existsb_exists. split.
  - intros (y & Hy & E). apply Nat.eqb_eq in E. subst. exact Hy.
  - intros H. exists x. rewrite Nat.eqb_refl. auto.
Qed.

(** Losing the data blocks [cs] and all parity blocks but [rs]. *)
Definition loss (len n k : nat) (enc : list byte) (rs cs : list nat) : list (option (list byte)) :=
  map (fun i => if Nat.ltb i n
                then if memb i cs then None else Some (block len enc i)
                else if memb (i - n) rs then Some (block len enc i) else None)
      (seq 0 (n + k)).

Lemma loss_length len n k enc rs cs : length (loss len n k enc rs cs) = n + k.
Proof. unfold loss. rewrite map_length. apply seq_length. Qed.

Lemma loss_nth len n k enc rs cs i : i < n + k ->
  nth i (loss len n k enc rs cs) None
  = if Nat.ltb i n then if memb i cs then None else Some (block len enc i)
    else if memb (i - n) rs then Some (block len enc i) else None.
Proof.
  intros H. unfold loss.
  set (f := fun i => if Nat.ltb i n then if memb i cs then None else Some (block len enc i)
    else if memb (i - n) rs then Some (block len enc i) else None).
  rewrite (nth_indep _ _ (f 0)) by (rewrite map_length, seq_length; exact H).
  rewrite map_nth, seq_nth by exact H. reflexivity.
Qed.

Lemma loss_received len n k enc rs cs : received len (n + k) enc (loss len n k enc rs cs).
Proof.
  split; [apply loss_length|]. intros i b Hi.
  assert (Hl : i < n + k).
  { rewrite <- (loss_length len n k enc rs cs). apply nth_error_Some. congruence. }
  apply nth_error_nth with (d := None) in Hi. rewrite loss_nth in Hi by exact Hl.
  destruct (Nat.ltb i n); [destruct (memb i cs)|destruct (memb (i - n) rs)]; congruence.
Qed.

Lemma count_memb (l s : list nat) : NoDup l -> NoDup s -> (forall x, In x s -> In x l) ->
  length (filter (fun x => memb x s) l) = length s.
Proof.
  intros Hl Hs Hi. apply Nat.le_antisymm.
  - apply NoDup_incl_length; [apply NoDup_filter, Hl|].
    intros x Hx. apply filter_In in Hx. apply memb_in. apply Hx.
  - apply NoDup_incl_length; [exact Hs|].
    intros x Hx. apply filter_In. split; [apply Hi, Hx|apply memb_in, Hx].
Qed.

Lemma loss_survivors len n k enc rs cs :
  NoDup rs -> NoDup cs -> length rs = length cs ->
  (forall c, In c cs -> c < n) -> (forall r, In r rs -> r < k) ->
  survivors (loss len n k enc rs cs) = n.
Proof.
  intros Nr Nc HL Hc Hr. rewrite <- (arr_survivors 0), arr_arrived. unfold arrived.
  rewrite loss_length, seq_app, filter_app, app_length. cbn [Nat.add].
  rewrite (filter_ext_in _ (fun i => negb (memb i cs))).
  2:{ intros i Hi. apply in_seq in Hi. rewrite loss_nth by lia.
      destruct (Nat.ltb_spec i n); [|lia]. destruct (memb i cs); reflexivity. }
  assert (E : filter (fun i => present (nth i (loss len n k enc rs cs) None)) (seq n k)
              = map (fun x => n + x) (filter (fun x => memb x rs) (seq 0 k))).
  { assert (Sq : forall m s, seq (n + s) m = map (fun x => n + x) (seq s m)).
    { induction m as [|m IH]; intros s; [reflexivity|]. cbn [seq map]. f_equal.
      rewrite <- IH. f_equal. lia. }
    specialize (Sq k 0). rewrite Nat.add_0_r in Sq. rewrite Sq. clear Sq.
    assert (G : forall l, (forall x, In x l -> x < k) ->
      filter (fun i => present (nth i (loss len n k enc rs cs) None)) (map (fun x => n + x) l)
      = map (fun x => n + x) (filter (fun x => memb x rs) l)).
    { induction l as [|a l IH]; intros Hl; [reflexivity|]. cbn [map filter].
      rewrite loss_nth by (specialize (Hl a (or_introl eq_refl)); lia).
      destruct (Nat.ltb_spec (n + a) n); [lia|]. replace (n + a - n) with a by lia.
      rewrite IH by (intros; apply Hl; right; assumption).
      destruct (memb a rs); reflexivity. }
    apply G. intros x Hx. apply in_seq in Hx. lia. }
  rewrite E, map_length, count_memb; [|apply seq_NoDup|exact Nr|intros x Hx; apply in_seq; specialize (Hr x Hx); lia].
  assert (C : length (filter (fun i => memb i cs) (seq 0 n)) = length cs).
  { apply count_memb; [apply seq_NoDup|exact Nc|]. intros x Hx. apply in_seq. specialize (Hc x Hx). lia. }
  assert (T : forall (f : nat -> bool) l, length (filter f l) + length (filter (fun i => negb (f i)) l) = length l).
  { intros f l. induction l as [|a l IH]; [reflexivity|]. cbn [filter]. destruct (f a); cbn [negb length]; lia. }
  specialize (T (fun i => memb i cs) (seq 0 n)). rewrite seq_length in T. lia.
Qed.

Lemma loss_refused len n k data rs cs (x : nat -> byte) :
  0 < n -> 0 < k -> length data = n * len ->
  NoDup rs -> NoDup cs -> length rs = length cs ->
  (forall c, In c cs -> c < n) -> (forall r, In r rs -> r < k) ->
  (forall r, In r rs -> bsum (length cs) (fun i => gf_mul (coef r (nth i cs 0)) (x (nth i cs 0))) = x00) ->
  (exists c, In c cs /\ x c <> x00) ->
  rs_decode (loss len n k (enc_of len n k data) rs cs) len n k = Some None.
Proof.
  intros Hn Hk Hd Nr Nc HL Hc Hr Hx (c0 & Hc0 & Hne).
  set (v := loss len n k (enc_of len n k data) rs cs).
  assert (Hs : survivors v = n) by (apply loss_survivors; assumption).
  destruct (rs_decode_cases len n k data v Hn Hk Hd (loss_received _ _ _ _ _ _) ltac:(lia))
    as [[E1 E2]|[E1 E2]]; [|exact E2].
  exfalso. apply E1. apply rs_invert_none; [lia|].
  exists (fun i => if memb i cs then x i else x00). split.
  - apply surv_kernel; [lia|]. intros s Hsu. apply used_in in Hsu. destruct Hsu as [Hl Hp].
    unfold v in Hl, Hp. rewrite loss_length in Hl. rewrite loss_nth in Hp by exact Hl.
    destruct (Nat.ltb_spec s n) as [Hsn|Hsn].
    + destruct (memb s cs) eqn:Ms; [congruence|].
      rewrite (sum_ext byte x00 gf_add n _ (fun l => gf_mul (if Nat.eqb s l then x01 else x00)
                 ((fun i => if memb i cs then x i else x00) l))).
      * rewrite (sum_delta_l byte x00 x01 gf_add gf_add gf_mul (fun x => x) gf_ring n s
                   (fun i => if memb i cs then x i else x00) Hsn). rewrite Ms. reflexivity.
      * intros l Hl'. rewrite co_data_entry by assumption. reflexivity.
    + destruct (memb (s - n) rs) eqn:Ms; [|congruence]. apply memb_in in Ms.
      replace s with (n + (s - n)) by lia. set (r := s - n) in *.
      rewrite (sum_ext byte x00 gf_add n _ (fun l => gf_mul (coef r l) (if memb l cs then x l else x00)))
        by (intros; rewrite co_parity_entry by assumption; reflexivity).
      rewrite (bsum_support n cs).
      * etransitivity; [|exact (Hx r Ms)]. apply sum_ext. intros i Hi.
        destruct (memb (nth i cs 0) cs) eqn:M; [reflexivity|].
        exfalso. assert (In (nth i cs 0) cs) by (apply nth_In, Hi). apply memb_in in H. congruence.
      * exact Nc.
      * exact Hc.
      * intros c _ Hni. destruct (memb c cs) eqn:M; [apply memb_in in M; contradiction|]. apply gf_mul_0_r.
  - exists c0. split; [apply Hc, Hc0|]. apply memb_in in Hc0. rewrite Hc0. exact Hne.
Qed.

(** Decoding restores every encoding after any loss that leaves [n] blocks. *)
Definition recovers (n k : nat) : Prop :=
  forall len data r v,
    length data = n * len -> rs_encode data len n k = Some r ->
    received len (n + k) (rr_data r) v -> n <= survivors v ->
    rs_decode v len n k = Some (Some (mkRR data n (n * len))).

Lemma loss_not_recovers n k rs cs (x : nat -> byte) :
  0 < n -> 0 < k ->
  NoDup rs -> NoDup cs -> length rs = length cs ->
  (forall c, In c cs -> c < n) -> (forall r, In r rs -> r < k) ->
  (forall r, In r rs -> bsum (length cs) (fun i => gf_mul (coef r (nth i cs 0)) (x (nth i cs 0))) = x00) ->
  (exists c, In c cs /\ x c <> x00) -> ~ recovers n k.
Proof.
  intros Hn Hk Nr Nc HL Hc Hr Hx Hex HR.
  set (data := repeat x00 n).
  assert (Hd : length data = n * 1) by (unfold data; rewrite repeat_length; lia).
  assert (He : rs_encode data 1 n k = Some (mkRR (enc_of 1 n k data) (n + k) ((n + k) * 1))).
  { unfold rs_encode. destruct (Nat.eqb_spec 1 0), (Nat.eqb_spec n 0), (Nat.eqb_spec k 0); try lia.
    reflexivity. }
  assert (Hs : survivors (loss 1 n k (enc_of 1 n k data) rs cs) = n) by (apply loss_survivors; assumption).
  pose proof (HR 1 data _ (loss 1 n k (enc_of 1 n k data) rs cs) Hd He
                (loss_received 1 n k (enc_of 1 n k data) rs cs) ltac:(lia)) as E.
  rewrite (loss_refused 1 n k data rs cs x) in E by assumption. discriminate E.
Qed.

Ltac nodups := repeat (constructor; [cbn; lia|]); constructor.
Ltac inlt := cbn; let c := fresh in intros c; intros; lia.

Lemma safe_needed n k : 0 < n -> 0 < k -> recovers n k -> safe n k = true.
Proof.
  intros Hn Hk HR.
  assert (A : 256 <= n -> 2 <= k -> False).
  { intros H1 H2. revert HR.
    apply (loss_not_recovers n k [1] [255] (fun _ => x01) Hn Hk); try nodups; try inlt; try reflexivity.
    - intros r [<-|[]]. vm_compute. reflexivity.
    - exists 255. split; [left; reflexivity|discriminate]. }
  assert (B : 11 <= n -> 3 <= k -> False).
  { intros H1 H2. revert HR.
    apply (loss_not_recovers n k [0; 1; 2] [2; 6; 10]
             (fun c => b8 (if Nat.eqb c 2 then 1 else if Nat.eqb c 6 then 229 else 228)%N) Hn Hk);
      try nodups; try inlt; try reflexivity.
    - intros r [<-|[<-|[<-|[]]]]; vm_compute; reflexivity.
    - exists 2. split; [left; reflexivity|discriminate]. }
  assert (C : 7 <= n -> 4 <= k -> False).
  { intros H1 H2. revert HR.
    apply (loss_not_recovers n k [0; 1; 3] [1; 2; 6]
             (fun c => b8 (if Nat.eqb c 1 then 1 else if Nat.eqb c 2 then 74 else 75)%N) Hn Hk);
      try nodups; try inlt; try reflexivity.
    - intros r [<-|[<-|[<-|[]]]]; vm_compute; reflexivity.
    - exists 1. split; [left; reflexivity|discriminate]. }
  assert (D : 4 <= n -> 5 <= k -> False).
  { intros H1 H2. revert HR.
    apply (loss_not_recovers n k [4] [3] (fun _ => x01) Hn Hk); try nodups; try inlt; try reflexivity.
    - intros r [<-|[]]. vm_compute. reflexivity.
    - exists 3. split; [left; reflexivity|discriminate]. }
  assert (E : 2 <= n -> 9 <= k -> False).
  { intros H1 H2. revert HR.
    apply (loss_not_recovers n k [8] [1] (fun _ => x01) Hn Hk); try nodups; try inlt; try reflexivity.
    - intros r [<-|[]]. vm_compute. reflexivity.
    - exists 1. split; [left; reflexivity|discriminate]. }
  unfold safe. lia.
Qed.

Lemma recovers_iff n k : 0 < n -> 0 < k -> (recovers n k <-> safe n k = true).
Proof.
  intros Hn Hk. split; [apply safe_needed; assumption|].
  intros H len data r v Hd He Hr Hs. apply (rs_recover len n k data r v); assumption.
Qed.
