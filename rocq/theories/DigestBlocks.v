(** * Message digests: the functions of blocks *)

From Coq Require Import List Arith NArith Bool Lia ZifyBool ZifyNat ZifyN.
From Verif Require Import Base EndianSpec EndianProofs DigestModel DigestSpec DigestStream.
Import ListNotations.
Local Open Scope N_scope.

Definition word (x : N) : Prop := x < 2 ^ 32.

(** ** Words *)

Lemma two32_eq : two32 = 2 ^ 32.
Proof. reflexivity. Qed.

Lemma word_add32 x y : word (add32 x y).
Proof. unfold word, add32, u32. apply N.mod_lt. discriminate. Qed.

Lemma word_add x y : word (add x y).
Proof. unfold word, add. apply N.mod_lt. discriminate. Qed.

Lemma word_sum l : word (sum l).
Proof. unfold word, sum. apply N.mod_lt. discriminate. Qed.

Lemma add32_add x y : add32 x y = add x y.
Proof. reflexivity. Qed.

Lemma not32_neg x : word x -> not32 x = neg x.
Proof.
  intros H. unfold not32, neg. destruct (N.eq_dec x 0) as [->|ne]; [reflexivity|].
  rewrite N.lnot_sub_low.
  - rewrite N.ones_equiv. reflexivity.
  - apply N.log2_lt_pow2; [lia|exact H].
Qed.

Lemma shl_val x n : n <= 32 -> word x -> shl32 x n = x mod 2 ^ (32 - n) * 2 ^ n.
Proof.
  intros Hn H. unfold shl32, u32. rewrite N.shiftl_mul_pow2, two32_eq.
  replace (2 ^ 32) with (2 ^ (32 - n) * 2 ^ n).
  - apply N.mul_mod_distr_r; apply N.pow_nonzero; discriminate.
  - rewrite <- N.pow_add_r. f_equal. lia.
Qed.

Lemma div_small x n : n <= 32 -> word x -> x / 2 ^ (32 - n) < 2 ^ n.
Proof.
  intros Hn H. apply N.div_lt_upper_bound; [apply N.pow_nonzero; discriminate|].
  rewrite <- N.pow_add_r. replace (32 - n + n) with 32 by lia. exact H.
Qed.

Lemma rotate_rotl x n : n <= 32 -> word x -> rotate_left x n = rotl n x.
Proof.
  intros Hn H. unfold rotate_left, rotl. rewrite shl_val by auto. rewrite N.shiftr_div_pow2.
  apply (lor_add _ _ n); [now apply div_small|]. apply N.mod_mul. apply N.pow_nonzero. discriminate.
Qed.

Lemma word_rotl x n : n <= 32 -> word x -> word (rotl n x).
Proof.
  intros Hn H. unfold word, rotl. pose proof (div_small x n Hn H) as D.
  assert (M : x mod 2 ^ (32 - n) < 2 ^ (32 - n)) by (apply N.mod_lt; apply N.pow_nonzero; discriminate).
  replace (2 ^ 32) with (2 ^ (32 - n) * 2 ^ n) by (rewrite <- N.pow_add_r; f_equal; lia).
  set (a := x mod 2 ^ (32 - n)) in *. set (b := x / 2 ^ (32 - n)) in *. set (p := 2 ^ (32 - n)) in *. set (r := 2 ^ n) in *.
  clearbody a b p r. nia.
Qed.

Lemma rotr_ok x n : n <= 32 -> word x -> sha256_S x n = rotr n x.
Proof.
  intros Hn H. unfold sha256_S, rotr. rewrite N.lor_comm.
  rewrite shl_val by (auto; lia). replace (32 - (32 - n)) with n by lia. rewrite N.shiftr_div_pow2.
  apply (lor_add _ _ (32 - n)).
  - apply N.div_lt_upper_bound; [apply N.pow_nonzero; discriminate|].
    rewrite <- N.pow_add_r. replace (n + (32 - n)) with 32 by lia. exact H.
  - apply N.mod_mul. apply N.pow_nonzero. discriminate.
Qed.

Lemma shr_ok x n : sha256_R x n = shr n x.
Proof. unfold sha256_R, shr. apply N.shiftr_div_pow2. Qed.

Lemma land_mod x k : N.land x (N.ones k) = x mod 2 ^ k.
Proof. apply N.land_ones. Qed.

Lemma safe_add_ok x y : word x -> word y -> safe_add x y = add x y.
Proof.
  unfold word. intros Hx Hy. unfold safe_add.
  change 65535 with (N.ones 16). rewrite !N.land_ones, !N.shiftr_div_pow2.
  unfold add32 at 3 4. unfold u32.
  change (2 ^ 16) with 65536. rewrite two32_eq. change (2 ^ 32) with 4294967296 in *.
  assert (A : x mod 65536 < 65536) by (apply N.mod_lt; discriminate).
  assert (B : y mod 65536 < 65536) by (apply N.mod_lt; discriminate).
  rewrite (N.mod_small (x mod 65536 + y mod 65536)) by lia.
  assert (X : x = 65536 * (x / 65536) + x mod 65536) by (apply N.div_mod; discriminate).
  assert (Y : y = 65536 * (y / 65536) + y mod 65536) by (apply N.div_mod; discriminate).
  set (xl := x mod 65536) in *. set (yl := y mod 65536) in *. set (xh := x / 65536) in *. set (yh := y / 65536) in *.
  clearbody xl yl xh yh.
  assert (S : xl + yl = 65536 * ((xl + yl) / 65536) + (xl + yl) mod 65536) by (apply N.div_mod; discriminate).
  assert (S1 : (xl + yl) mod 65536 < 65536) by (apply N.mod_lt; discriminate).
  set (sh := (xl + yl) / 65536) in *. set (sl := (xl + yl) mod 65536) in *. clearbody sh sl.
  unfold add32, u32. rewrite two32_eq. change (2 ^ 32) with 4294967296.
  rewrite (N.mod_small (xh + yh)) by (clear - X Y Hx Hy; lia). rewrite (N.mod_small (xh + yh + sh)) by (clear - X Y Hx Hy S A B; lia).
  unfold shl32, u32. rewrite N.shiftl_mul_pow2, two32_eq. change (2 ^ 32) with (65536 * 65536). change (2 ^ 16) with 65536.
  rewrite N.mul_mod_distr_r by discriminate.
  rewrite (lor_add _ _ 16).
  - unfold add. change (2 ^ 32) with 4294967296.
    pose proof (N.div_mod (xh + yh + sh) 65536 ltac:(discriminate)) as D.
    assert (U : (xh + yh + sh) mod 65536 < 65536) by (apply N.mod_lt; discriminate).
    set (k := (xh + yh + sh) / 65536) in *. set (r := (xh + yh + sh) mod 65536) in *. clearbody k r.
    apply (N.mod_unique _ _ k); clear - D U S S1 X Y; lia.
  - exact S1.
  - change (2 ^ 16) with 65536. apply N.mod_mul. discriminate.
Qed.

Lemma word_land x y : word x -> word (N.land x y).
Proof.
  unfold word. intros H. destruct (N.eq_dec (N.land x y) 0) as [->|ne]; [reflexivity|].
  apply N.log2_lt_pow2; [lia|]. destruct (N.eq_dec x 0) as [->|nx]; [rewrite N.land_0_l in ne; congruence|].
  eapply N.le_lt_trans; [apply N.log2_land|]. apply N.min_lt_iff. left. apply N.log2_lt_pow2; [lia|exact H].
Qed.

Lemma word_lxor x y : word x -> word y -> word (N.lxor x y).
Proof.
  unfold word. intros Hx Hy. destruct (N.eq_dec (N.lxor x y) 0) as [->|ne]; [reflexivity|].
  apply N.log2_lt_pow2; [lia|]. eapply N.le_lt_trans; [apply N.log2_lxor|]. apply N.max_lub_lt.
  - destruct (N.eq_dec x 0) as [->|nx]; [reflexivity|]. apply N.log2_lt_pow2; [lia|exact Hx].
  - destruct (N.eq_dec y 0) as [->|ny]; [reflexivity|]. apply N.log2_lt_pow2; [lia|exact Hy].
Qed.

Lemma word_neg x : word (neg x).
Proof. unfold word, neg. lia. Qed.

Lemma word_div x n : word x -> word (x / 2 ^ n).
Proof. unfold word. intros H. eapply N.le_lt_trans; [apply N.div_le_upper_bound with (q := x)|exact H].
  - apply N.pow_nonzero. discriminate.
  - assert (1 <= 2 ^ n) by (pose proof (N.pow_nonzero 2 n ltac:(discriminate)); lia). nia.
Qed.

Lemma word_rotr x n : n <= 32 -> word x -> word (rotr n x).
Proof.
  intros Hn H. assert (E : rotr n x = rotl (32 - n) x).
  { unfold rotr, rotl. replace (32 - (32 - n)) with n by lia. reflexivity. }
  rewrite E. apply word_rotl; [lia|exact H].
Qed.

(** A choice by or and by exclusive or. *)
Lemma choice x y z : N.lor (N.land x y) (N.land (N.lnot x 32) z) = N.lxor (N.land x y) (N.land (N.lnot x 32) z) \/ 2 ^ 32 <= x.
Proof.
  destruct (N.lt_ge_cases x (2 ^ 32)) as [H|H]; [left|right; exact H].
  apply N.bits_inj. intros i. rewrite N.lor_spec, N.lxor_spec, !N.land_spec.
  destruct (N.lt_ge_cases i 32) as [Hi|Hi].
  - rewrite N.lnot_spec_low by exact Hi. destruct (N.testbit x i), (N.testbit y i), (N.testbit z i); reflexivity.
  - assert (B : N.testbit x i = false).
    { destruct (N.eq_dec x 0) as [->|ne]; [apply N.bits_0|]. apply N.bits_above_log2.
      apply (N.lt_le_trans _ 32); [|exact Hi]. apply N.log2_lt_pow2; [clear - ne; lia|exact H]. }
    rewrite B. cbn [andb orb xorb]. destruct (N.testbit (N.lnot x 32) i && N.testbit z i); reflexivity.
Qed.

Lemma F1_Ch x y z : word x -> sha1_F1 x y z = Ch x y z.
Proof.
  intros H. unfold sha1_F1, Ch, not32. destruct (choice x y z) as [E|E]; [|unfold word in H; lia].
  rewrite E. fold (not32 x). now rewrite not32_neg.
Qed.

Lemma F3_Maj x y z : sha1_F3 x y z = Maj x y z.
Proof.
  unfold sha1_F3, Maj. apply N.bits_inj. intros i.
  rewrite N.lor_spec, !N.lxor_spec, !N.land_spec, N.lor_spec.
  destruct (N.testbit x i), (N.testbit y i), (N.testbit z i); reflexivity.
Qed.

(** ** Bytes and words *)

Lemma shl_byte b n : n <= 24 -> b < 256 -> shl32 b n = b * 2 ^ n.
Proof.
  intros Hn H. unfold shl32, u32. rewrite N.shiftl_mul_pow2, two32_eq. apply N.mod_small.
  assert (2 ^ n <= 2 ^ 24) by (apply N.pow_le_mono_r; [discriminate|exact Hn]).
  change (2 ^ 24) with 16777216 in *. change (2 ^ 32) with 4294967296. set (p := 2 ^ n) in *. clearbody p. nia.
Qed.

Lemma land_byte b : b < 256 -> N.land b 255 = b.
Proof. intros H. change 255 with (N.ones 8). rewrite N.land_ones. now apply N.mod_small. Qed.

Lemma be_word a b c d : a < 256 -> b < 256 -> c < 256 -> d < 256 ->
  N.lor (N.lor (N.lor (shl32 a 24) (shl32 b 16)) (shl32 c 8)) d = be_value [a; b; c; d].
Proof.
  intros Ha Hb Hc Hd. rewrite !shl_byte by (auto; discriminate).
  change (2 ^ 24) with 16777216. change (2 ^ 16) with 65536. change (2 ^ 8) with 256.
  rewrite (lor_add (a * 16777216) (b * 65536) 24); [|change (2 ^ 24) with 16777216; lia|apply N.mod_mul; discriminate].
  rewrite (lor_add (a * 16777216 + b * 65536) (c * 256) 16); [|change (2 ^ 16) with 65536; lia|].
  2:{ change (2 ^ 16) with 65536. replace (a * 16777216 + b * 65536) with ((a * 256 + b) * 65536) by lia. apply N.mod_mul. discriminate. }
  rewrite (lor_add _ _ 8); [|change (2 ^ 8) with 256; lia|].
  2:{ change (2 ^ 8) with 256. replace (a * 16777216 + b * 65536 + c * 256) with ((a * 65536 + b * 256 + c) * 256) by lia. apply N.mod_mul. discriminate. }
  unfold be_value. cbn [length]. change (256 ^ N.of_nat 3) with 16777216. change (256 ^ N.of_nat 2) with 65536.
  change (256 ^ N.of_nat 1) with 256. change (256 ^ N.of_nat 0) with 1. lia.
Qed.

Lemma le_word a b c d : a < 256 -> b < 256 -> c < 256 -> d < 256 ->
  N.lor (N.lor (N.lor a (shl32 b 8)) (shl32 c 16)) (shl32 d 24) = le_value [a; b; c; d].
Proof.
  intros Ha Hb Hc Hd. unfold le_value. change (rev [a; b; c; d]) with [d; c; b; a]. rewrite <- be_word by auto.
  rewrite (N.lor_comm _ (shl32 d 24)), (N.lor_comm _ (shl32 c 16)), (N.lor_comm a). now rewrite !N.lor_assoc.
Qed.

Lemma four (l : list N) k : (k + 4 <= length l)%nat ->
  firstn 4 (skipn k l) = [nth k l 0; nth (k + 1) l 0; nth (k + 2) l 0; nth (k + 3) l 0].
Proof.
  revert k. induction l as [|x l IH]; intros k H; [cbn in H; lia|]. destruct k as [|k].
  - do 3 (destruct l; [cbn in H; lia|]). reflexivity.
  - cbn [skipn Nat.add nth]. apply IH. cbn in H. lia.
Qed.

Lemma pieces_map n q l : (1 <= n)%nat -> length l = (n * q)%nat ->
  pieces n l = map (fun j => firstn n (skipn (n * j) l)) (seq 0 q).
Proof.
  intros Hn L. apply (nth_ext _ _ [] (firstn n (skipn (n * 0) l))).
  - now rewrite map_length, seq_length, (pieces_length n q).
  - intros i Hi. rewrite (pieces_length n q) in Hi by auto.
    rewrite (pieces_nth n q) by auto.
    rewrite (map_nth (fun j => firstn n (skipn (n * j) l))), seq_nth by exact Hi. reflexivity.
Qed.

Lemma byte_nth l i : bytes l -> nth i l 0 < 256.
Proof.
  intros B. destruct (Nat.lt_ge_cases i (length l)) as [H|H]; [|rewrite nth_overflow by exact H; reflexivity].
  unfold bytes in B. rewrite Forall_forall in B. apply B. now apply nth_In.
Qed.

Lemma words_map (f : list N -> N) (buf : list N) : length buf = 64%nat -> map f (pieces 4 buf) =
  map (fun j => f [nth (4 * j) buf 0; nth (4 * j + 1) buf 0; nth (4 * j + 2) buf 0; nth (4 * j + 3) buf 0]) (seq 0 16).
Proof.
  intros L. rewrite (pieces_map 4 16) by (auto; lia). rewrite map_map. apply map_ext_in. intros j Hj. apply in_seq in Hj.
  rewrite four by lia. reflexivity.
Qed.

Lemma md5_group_ok buf : length buf = 64%nat -> bytes buf -> md5_group buf = map le_value (pieces 4 buf).
Proof.
  intros L B. rewrite words_map by exact L. unfold md5_group. apply map_ext. intros j. cbv zeta.
  rewrite !land_byte by now apply byte_nth. rewrite Nat.add_0_r. apply le_word; now apply byte_nth.
Qed.

Lemma sha1_group_ok buf : length buf = 64%nat -> bytes buf -> sha1_group buf = map be_value (pieces 4 buf).
Proof.
  intros L B. rewrite words_map by exact L. unfold sha1_group. apply map_ext. intros j. cbv zeta.
  rewrite !land_byte by now apply byte_nth. rewrite Nat.add_0_r. apply be_word; now apply byte_nth.
Qed.

(** ** MD5 *)

Definition md5_macro_at (i : nat) : md5_macro := match (i / 16)%nat with 0%nat => FF | 1%nat => GG | 2%nat => HH | _ => II end.
Definition md5_reg_at (i : nat) : md5_reg := match (i mod 4)%nat with 0%nat => Ra | 1%nat => Rd | 2%nat => Rc | _ => Rb end.
Definition md5_line (i : nat) : md5_macro * md5_reg * nat * (nat * nat) * (nat * nat) :=
  (md5_macro_at i, md5_reg_at i, md5_index i, ((i / 16)%nat, (i mod 4)%nat), ((i / 16)%nat, (i mod 16)%nat)).

Lemma md5_lines_eq : md5_lines = map md5_line (seq 0 64).
Proof. vm_compute. reflexivity. Qed.

Lemma md5_table : map (fun i => nth (i mod 16) (nth (i / 16) md5_ti []) 0) (seq 0 64) = map (fun i => nth i md5_T 0) (seq 0 64).
Proof. vm_compute. reflexivity. Qed.

Lemma map_seq_inj (f g : nat -> N) n : map f (seq 0 n) = map g (seq 0 n) -> forall i, (i < n)%nat -> f i = g i.
Proof.
  intros E i Hi. assert (K : nth i (map f (seq 0 n)) (f 0%nat) = nth i (map g (seq 0 n)) (f 0%nat)) by now rewrite E.
  rewrite (map_nth f), seq_nth in K by exact Hi.
  rewrite (nth_indep _ _ (g 0%nat)) in K by (now rewrite map_length, seq_length).
  rewrite (map_nth g), seq_nth in K by exact Hi. exact K.
Qed.

Definition words4 (v : md5_regs) : Prop := let '(a, b, c, d) := v in word a /\ word b /\ word c /\ word d.

Lemma md5_reg_next i : md5_reg_at (S i) = match md5_reg_at i with Ra => Rd | Rd => Rc | Rc => Rb | Rb => Ra end.
Proof.
  unfold md5_reg_at. pose proof (Nat.mod_upper_bound i 4 ltac:(lia)) as U. pose proof (Nat.div_mod i 4 ltac:(lia)) as D.
  assert (E : (S i mod 4 = (if i mod 4 =? 3 then 0 else S (i mod 4)))%nat).
  { destruct (Nat.eqb_spec (i mod 4) 3) as [e|e].
    - symmetry. apply (Nat.mod_unique _ _ (i / 4 + 1)); lia.
    - symmetry. apply (Nat.mod_unique _ _ (i / 4)); lia. }
  rewrite E. destruct (i mod 4)%nat as [|[|[|[|?]]]]; try reflexivity. lia.
Qed.

Lemma words4_args r v : words4 v -> words4 (md5_args r v).
Proof. destruct v as [[[a b] c] d]. intros (Ha & Hb & Hc & Hd). destruct r; cbn; auto. Qed.

Lemma md5_f_ok i b c d : (i < 64)%nat -> word b -> word c -> word d ->
  match md5_macro_at i with FF => md5_F b c d | GG => md5_G b c d | HH => md5_H b c d | II => md5_I b c d end = md5_f i b c d.
Proof.
  intros Hi Hb Hc Hd. unfold md5_macro_at, md5_f, md5_F, md5_G, md5_H, md5_I. rewrite !not32_neg by assumption.
  destruct (i / 16)%nat as [|[|[|?]]]; reflexivity.
Qed.

Lemma sum4 a b c d : add32 (add32 (add32 a b) c) d = sum [a; b; c; d].
Proof.
  unfold add32, u32, sum. cbn [fold_right]. rewrite two32_eq. rewrite N.add_mod_idemp_l by discriminate.
  rewrite <- (N.add_assoc (_ mod _)). rewrite N.add_mod_idemp_l by discriminate. f_equal. lia.
Qed.

Lemma md5_shift_le i : (i < 64)%nat -> md5_shift i <= 32.
Proof.
  intros Hi. assert (F : forallb (fun i => md5_shift i <=? 32) (seq 0 64) = true) by (vm_compute; reflexivity).
  rewrite forallb_forall in F. apply N.leb_le. apply F. apply in_seq. lia.
Qed.

Lemma md5_step_ok X v i : (i < 64)%nat -> words4 v ->
  md5_args (md5_reg_at (S i)) (md5_step X v (md5_line i)) = md5_round X (md5_args (md5_reg_at i) v) i /\
  words4 (md5_step X v (md5_line i)).
Proof.
  intros Hi Hv. pose proof (words4_args (md5_reg_at i) v Hv) as HA. unfold md5_step, md5_line.
  rewrite md5_reg_next. set (r := md5_reg_at i) in *. clearbody r.
  destruct (md5_args r v) as [[[a b] c] d] eqn:E. destruct HA as (Ha & Hb & Hc & Hd).
  rewrite (md5_f_ok i b c d Hi Hb Hc Hd). rewrite sum4.
  rewrite (map_seq_inj _ _ 64 md5_table i Hi).
  change (nth (i mod 4) (nth (i / 16) md5_s []) 0) with (md5_shift i).
  rewrite rotate_rotl by (now apply md5_shift_le || apply word_sum).
  unfold md5_round. rewrite add32_add. set (x := add b _).
  assert (Hx : word x) by apply word_add. clearbody x.
  destruct v as [[[va vb] vc] vd]. destruct Hv as (Va & Vb & Vc & Vd).
  destruct r; cbn in E; injection E as <- <- <- <-; cbn; auto 10.
Qed.

Lemma md5_fold_ok X : forall n v, (n <= 64)%nat -> words4 v ->
  md5_args (md5_reg_at n) (fold_left (md5_step X) (map md5_line (seq 0 n)) v) = fold_left (md5_round X) (seq 0 n) v /\
  words4 (fold_left (md5_step X) (map md5_line (seq 0 n)) v).
Proof.
  induction n as [|n IH]; intros v Hn Hv.
  - split; [|exact Hv]. destruct v as [[[a b] c] d]. reflexivity.
  - rewrite seq_S, map_app, !fold_left_app. cbn [map fold_left Nat.add].
    destruct (IH v ltac:(lia) Hv) as [E W]. rewrite <- E. apply md5_step_ok; [lia|exact W].
Qed.

Lemma land_word x : word x -> N.land x 4294967295 = x.
Proof. intros H. change 4294967295 with (N.ones 32). rewrite N.land_ones. now apply N.mod_small. Qed.

Lemma md5_block_ok h buf : words4 h -> length buf = 64%nat -> bytes buf ->
  md5_calc_block h buf = md5_compress h buf /\ words4 (md5_calc_block h buf).
Proof.
  intros Hh L B. destruct h as [[[A B'] C] D]. unfold md5_calc_block, md5_compress.
  rewrite md5_group_ok by auto. rewrite md5_lines_eq.
  destruct (md5_fold_ok (map le_value (pieces 4 buf)) 64 (A, B', C, D) (le_n 64) Hh) as [E _].
  change (md5_reg_at 64) with Ra in E.
  destruct (fold_left (md5_step _) _ _) as [[[a b] c] d]. cbn [md5_args] in E. rewrite <- E.
  rewrite !land_word by apply word_add32. split; [reflexivity|]. cbn. auto using word_add32.
Qed.

(** ** Message schedules *)

Section Schedule.

Variable g : list N -> N.
Let next (w : list N) : list N := w ++ [g w].

Lemma sched_length n w : length (Nat.iter n next w) = (length w + n)%nat.
Proof. induction n; cbn [Nat.iter nat_rect]; [cbn; lia|]. unfold next at 1. rewrite app_length. cbn [length]. fold (Nat.iter n next w). rewrite IHn. lia. Qed.

Lemma sched_prefix w n : forall k, exists s, Nat.iter (k + n) next w = Nat.iter n next w ++ s.
Proof.
  induction k as [|k [s IH]]; [exists []; now rewrite app_nil_r|]. cbn [Nat.add Nat.iter nat_rect].
  fold (Nat.iter (k + n) next w). unfold next at 1. rewrite IH. eexists. rewrite <- app_assoc. reflexivity.
Qed.

Lemma sched_nth_prefix w n m i : (n <= m)%nat -> (i < length w + n)%nat ->
  nth i (Nat.iter m next w) 0 = nth i (Nat.iter n next w) 0.
Proof.
  intros Hm Hi. destruct (sched_prefix w n (m - n)) as [s E]. replace (m - n + n)%nat with m in E by lia. rewrite E.
  apply app_nth1. rewrite sched_length. exact Hi.
Qed.

Lemma sched_new w n k : (k < n)%nat -> nth (length w + k) (Nat.iter n next w) 0 = g (Nat.iter k next w).
Proof.
  intros H. rewrite (sched_nth_prefix w (S k) n) by lia. cbn [Nat.iter nat_rect]. fold (Nat.iter k next w). unfold next at 1.
  rewrite app_nth2; rewrite sched_length; [|lia]. rewrite Nat.sub_diag. reflexivity.
Qed.

Lemma sched_old w n i : (i < length w)%nat -> nth i (Nat.iter n next w) 0 = nth i w 0.
Proof. intros H. apply (sched_nth_prefix w 0 n); lia. Qed.

End Schedule.

(** ** SHA-1 *)

Definition sha1_macro_at (t : nat) : sha1_macro := match (t / 20)%nat with 0%nat => FF1 | 1%nat => FF2 | 2%nat => FF3 | _ => FF4 end.
Definition sha1_reg_at (t : nat) : sha1_reg :=
  match (t mod 5)%nat with 0%nat => Sa | 1%nat => Se | 2%nat => Sd | 3%nat => Sc | _ => Sb end.
Definition sha1_line (t : nat) : sha1_macro * sha1_reg * sha1_word * nat :=
  (sha1_macro_at t, sha1_reg_at t, if (t <? 16)%nat then G t else W t, (t / 20)%nat).

Lemma sha1_lines_eq : sha1_lines = map sha1_line (seq 0 80).
Proof. vm_compute. reflexivity. Qed.

Lemma sha1_k_table : map (fun t => nth (t / 20) sha1_k 0) (seq 0 80) = map sha1_K (seq 0 80).
Proof. vm_compute. reflexivity. Qed.

Definition words5 (v : sha1_regs) : Prop := let '(a, b, c, d, e) := v in word a /\ word b /\ word c /\ word d /\ word e.

Lemma sha1_reg_next t : sha1_reg_at (S t) = match sha1_reg_at t with Sa => Se | Se => Sd | Sd => Sc | Sc => Sb | Sb => Sa end.
Proof.
  unfold sha1_reg_at. pose proof (Nat.mod_upper_bound t 5 ltac:(lia)) as U. pose proof (Nat.div_mod t 5 ltac:(lia)) as D.
  assert (E : (S t mod 5 = (if t mod 5 =? 4 then 0 else S (t mod 5)))%nat).
  { destruct (Nat.eqb_spec (t mod 5) 4) as [e|e].
    - symmetry. apply (Nat.mod_unique _ _ (t / 5 + 1)); lia.
    - symmetry. apply (Nat.mod_unique _ _ (t / 5)); lia. }
  rewrite E. destruct (t mod 5)%nat as [|[|[|[|[|?]]]]]; try reflexivity. lia.
Qed.

Lemma words5_args r v : words5 v -> words5 (sha1_args r v).
Proof. destruct v as [[[[a b] c] d] e]. intros (Ha & Hb & Hc & Hd & He). destruct r; cbn; auto 10. Qed.

Lemma sha1_f_ok t b c d : word b -> word c -> word d ->
  match sha1_macro_at t with FF1 => sha1_F1 b c d | FF2 => sha1_F2 b c d | FF3 => sha1_F3 b c d | FF4 => sha1_F4 b c d end
  = sha1_f t b c d.
Proof.
  intros Hb Hc Hd. unfold sha1_macro_at, sha1_f. rewrite F1_Ch by exact Hb. rewrite F3_Maj.
  destruct (t / 20)%nat as [|[|[|?]]]; reflexivity.
Qed.

Lemma sum5 a b c d e : add32 e (add32 (add32 (add32 a b) c) d) = sum [a; b; e; c; d].
Proof.
  rewrite sum4. unfold add32, u32, sum. cbn [fold_right]. rewrite two32_eq. rewrite N.add_mod_idemp_r by discriminate. f_equal. lia.
Qed.

(** The ring of sixteen words before step [t]. *)
Definition ring (w : list N) (t : nat) (g : list N) : Prop :=
  length g = 16%nat /\
  forall i, (i < 16)%nat -> exists u, (u < 80)%nat /\ (u < Nat.max t 16)%nat /\ (Nat.max t 16 <= u + 16)%nat /\ (u mod 16 = i)%nat /\ nth i g 0 = nth u w 0.

Lemma ring_at w t g u : ring w t g -> (u < Nat.max t 16)%nat -> (Nat.max t 16 <= u + 16)%nat -> nth (u mod 16) g 0 = nth u w 0.
Proof.
  intros [_ R] H1 H2. destruct (R (u mod 16)%nat (Nat.mod_upper_bound u 16 ltac:(lia))) as (u' & _ & A & B & C & E).
  rewrite E. f_equal. pose proof (Nat.div_mod u 16 ltac:(lia)). pose proof (Nat.div_mod u' 16 ltac:(lia)).
  set (q := (u / 16)%nat) in *. set (q' := (u' / 16)%nat) in *. clearbody q q'. rewrite C in *. lia.
Qed.

Lemma land15 t i : (i <= t)%nat -> N.to_nat (N.land (N.of_nat t - N.of_nat i) 15) = ((t - i) mod 16)%nat.
Proof.
  intros H. rewrite <- Nat2N.inj_sub. change 15 with (N.ones 4). rewrite N.land_ones. change (2 ^ 4) with (N.of_nat 16).
  rewrite <- Nat2N.inj_mod. apply Nat2N.id.
Qed.

Definition sha1_g (w : list N) : N :=
  let t := length w in
  rotl 1 (N.lxor (N.lxor (N.lxor (nth (t - 3) w 0) (nth (t - 8) w 0)) (nth (t - 14) w 0)) (nth (t - 16) w 0)).

Lemma sha1_W_ok block t g : length block = 16%nat -> Forall word block -> (16 <= t < 80)%nat ->
  let w := Nat.iter 64 sha1_next block in
  Forall word w -> ring w t g -> sha1_W t g = nth t w 0 /\ ring w (S t) (upd g (N.to_nat (N.land (N.of_nat t) 15)) (sha1_W t g)).
Proof.
  intros L B Ht w FW R.
  assert (E : sha1_W t g = nth t w 0).
  { unfold sha1_W.
    assert (A : forall k, (k <= 16)%nat -> (1 <= k)%nat -> nth (N.to_nat (N.land (N.of_nat t - N.of_nat k) 15)) g 0 = nth (t - k) w 0).
    { intros k K1 K2. rewrite land15 by lia. apply (ring_at w t); auto; lia. }
    assert (A0 : nth (N.to_nat (N.land (N.of_nat t - N.of_nat 0) 15)) g 0 = nth (t - 16) w 0).
    { rewrite land15 by lia. rewrite <- (ring_at w t g (t - 16)) by (auto; lia). f_equal.
      replace (t - 0)%nat with (t - 16 + 1 * 16)%nat by lia. apply Nat.mod_add. lia. }
    pose proof (A 3%nat ltac:(lia) ltac:(lia)) as A3. pose proof (A 8%nat ltac:(lia) ltac:(lia)) as A8.
    pose proof (A 14%nat ltac:(lia) ltac:(lia)) as A14.
    change (N.of_nat 3) with 3 in A3. change (N.of_nat 8) with 8 in A8. change (N.of_nat 14) with 14 in A14. change (N.of_nat 0) with 0 in A0.
    rewrite A3, A8, A14, A0.
    assert (WN : forall i, word (nth i w 0)).
    { intros i. destruct (Nat.lt_ge_cases i (length w)) as [Hi|Hi]; [|rewrite nth_overflow by exact Hi; reflexivity].
      rewrite Forall_forall in FW. apply FW. now apply nth_In. }
    rewrite rotate_rotl by (try lia; repeat apply word_lxor; apply WN).
    pose proof (sched_new sha1_g block 64 (t - 16) ltac:(lia)) as S.
    change (nth (length block + (t - 16)) w 0 = sha1_g (Nat.iter (t - 16) sha1_next block)) in S.
    rewrite L in S. replace (16 + (t - 16))%nat with t in S by lia. rewrite S. unfold sha1_g. cbv zeta.
    assert (LW : length (Nat.iter (t - 16) sha1_next block) = t).
    { etransitivity; [apply (sched_length sha1_g)|]. lia. }
    rewrite LW.
    assert (P : forall i, (i < t)%nat -> nth i (Nat.iter (t - 16) sha1_next block) 0 = nth i w 0).
    { intros i Hi. symmetry. unfold w.
      apply (sched_nth_prefix sha1_g block (t - 16) 64 i); lia. }
    rewrite !P by lia. reflexivity. }
  split; [exact E|]. rewrite E. replace (N.of_nat t) with (N.of_nat t - N.of_nat 0) by (cbn; lia). rewrite land15 by lia. rewrite Nat.sub_0_r.
  destruct R as [RL R]. split; [rewrite upd_length; exact RL|]. intros i Hi.
  pose proof (Nat.mod_upper_bound t 16 ltac:(lia)) as U.
  destruct (Nat.eq_dec (t mod 16) i) as [<-|ne].
  - exists t. rewrite nth_upd_eq by lia. repeat split; try lia.
  - destruct (R i Hi) as (u & A1 & A2 & A3 & A4 & A5). exists u. rewrite nth_upd_neq by auto.
    assert (u + 16 <> t)%nat. { intros K. apply ne. rewrite <- A4, <- K. replace (u + 16)%nat with (u + 1 * 16)%nat by lia. apply Nat.mod_add. lia. }
    repeat split; auto; lia.
Qed.

Lemma word_nth w i : Forall word w -> word (nth i w 0).
Proof.
  intros F. destruct (Nat.lt_ge_cases i (length w)) as [Hi|Hi]; [|rewrite nth_overflow by exact Hi; reflexivity].
  rewrite Forall_forall in F. apply F. now apply nth_In.
Qed.

Lemma sha1_sched_words block : Forall word block -> forall n, Forall word (Nat.iter n sha1_next block).
Proof.
  intros B. induction n as [|n IH]; [exact B|]. cbn [Nat.iter nat_rect]. fold (Nat.iter n sha1_next block).
  unfold sha1_next at 1. apply Forall_app. split; [exact IH|]. constructor; [|constructor].
  apply word_rotl; [discriminate|]. repeat apply word_lxor; now apply word_nth.
Qed.

Lemma sha1_step_ok block t g v : length block = 16%nat -> Forall word block -> (t < 80)%nat ->
  let w := Nat.iter 64 sha1_next block in
  ring w t g -> words5 v ->
  ring w (S t) (fst (sha1_step (g, v) (sha1_line t))) /\
  sha1_args (sha1_reg_at (S t)) (snd (sha1_step (g, v) (sha1_line t))) = sha1_round w (sha1_args (sha1_reg_at t) v) t /\
  words5 (snd (sha1_step (g, v) (sha1_line t))).
Proof.
  intros L B Ht w R Hv. pose proof (words5_args (sha1_reg_at t) v Hv) as HA.
  assert (Q : exists g' , (match (if (t <? 16)%nat then G t else W t) with
                 | G i => (g, nth i g 0)
                 | W t => (upd g (N.to_nat (N.land (N.of_nat t) 15)) (sha1_W t g), sha1_W t g)
                 end) = (g', nth t w 0) /\ ring w (S t) g').
  { destruct (Nat.ltb_spec t 16) as [C|C].
    - exists g. split.
      + f_equal. rewrite <- (ring_at w t g t) by (auto; lia). now rewrite (Nat.mod_small t) by lia.
      + destruct R as [RL R]. split; [exact RL|]. intros i Hi. destruct (R i Hi) as (u & A1 & A2 & A3 & A4 & A5).
        exists u. repeat split; auto; lia.
    - destruct (sha1_W_ok block t g L B ltac:(lia) (sha1_sched_words block B 64) R) as [E R'].
      eexists. split; [|exact R']. now rewrite E at 2. }
  destruct Q as (g' & Q & R'). unfold sha1_step, sha1_line. rewrite Q.
  rewrite sha1_reg_next. set (r := sha1_reg_at t) in *. clearbody r.
  destruct (sha1_args r v) as [[[[a b] c] d] e] eqn:E. destruct HA as (Ha & Hb & Hc & Hd & He).
  rewrite (sha1_f_ok t b c d Hb Hc Hd). rewrite sum5.
  rewrite (map_seq_inj _ _ 80 sha1_k_table t Ht).
  rewrite !rotate_rotl by (auto; discriminate). cbn [fst snd]. split; [exact R'|].
  unfold sha1_round. set (x := sum _). assert (Hx : word x) by apply word_sum. clearbody x.
  assert (Hy : word (rotl 30 b)) by (apply word_rotl; [discriminate|exact Hb]). set (y := rotl 30 b) in *. clearbody y.
  destruct v as [[[[va vb] vc] vd] ve]. destruct Hv as (Va & Vb & Vc & Vd & Ve).
  destruct r; cbn in E; injection E as <- <- <- <- <-; cbn; auto 10.
Qed.

Lemma sha1_fold_ok block : length block = 16%nat -> Forall word block -> forall n v, (n <= 80)%nat -> words5 v ->
  let w := Nat.iter 64 sha1_next block in
  let r := fold_left sha1_step (map sha1_line (seq 0 n)) (block, v) in
  ring w n (fst r) /\ sha1_args (sha1_reg_at n) (snd r) = fold_left (sha1_round w) (seq 0 n) v /\ words5 (snd r).
Proof.
  intros L B n v. induction n as [|n IH]; intros Hn Hv w r.
  - cbn in r. unfold r. cbn [fst snd]. split; [|split; [destruct v as [[[[a b] c] d] e]; reflexivity|exact Hv]].
    split; [exact L|]. intros i Hi. exists i. split; [lia|]. split; [lia|]. split; [lia|].
    split; [apply Nat.mod_small; exact Hi|]. symmetry. apply (sched_old sha1_g block 64 i). lia.
  - unfold r. rewrite seq_S, map_app, !fold_left_app. cbn [map fold_left Nat.add].
    destruct (IH ltac:(lia) Hv) as (R & E & W). fold w in R, E.
    destruct (fold_left sha1_step (map sha1_line (seq 0 n)) (block, v)) as [g v']. cbn [fst snd] in R, E, W.
    rewrite <- E. apply (sha1_step_ok block n g v'); auto.
Qed.

Lemma be_words buf : bytes buf -> length buf = 64%nat -> Forall word (map be_value (pieces 4 buf)).
Proof.
  intros B L. apply Forall_forall. intros x Hx. apply in_map_iff in Hx. destruct Hx as (p & <- & Hp).
  pose proof (pieces_blocks 4 16 ltac:(lia) buf L B) as F. rewrite Forall_forall in F. destruct (F p Hp) as [Lp Bp].
  pose proof (be_value_bound p Bp) as V. rewrite Lp in V. exact V.
Qed.

Lemma sha1_block_ok h buf : words5 h -> length buf = 64%nat -> bytes buf ->
  sha1_calc_block h buf = sha1_compress h buf /\ words5 (sha1_calc_block h buf).
Proof.
  intros Hh L B. destruct h as [[[[H0 H1] H2] H3] H4]. unfold sha1_calc_block, sha1_compress.
  rewrite sha1_group_ok by auto. rewrite sha1_lines_eq. unfold sha1_schedule.
  pose proof (be_words buf B L) as BW.
  assert (LW : length (map be_value (pieces 4 buf)) = 16%nat) by (rewrite map_length; apply (pieces_length 4 16); [lia|exact L]).
  destruct (sha1_fold_ok _ LW BW 80 (H0, H1, H2, H3, H4) (le_n 80) Hh) as (_ & E & _). rewrite <- E.
  change (sha1_reg_at 80) with Sa.
  destruct (fold_left sha1_step _ _) as [g [[[[a b] c] d] e]]. cbn [snd sha1_args].
  split; [reflexivity|]. cbn. auto 10 using word_add32.
Qed.

(** ** SHA-256 *)

Lemma upd_upd (l : list N) i a b : upd (upd l i a) i b = upd l i b.
Proof. revert i. induction l as [|x l IH]; intros [|i]; cbn [upd]; auto. now rewrite IH. Qed.

Definition sha256_put (buf : list N) (g : list N) (j : nat) : list N :=
  upd g (j / 4) (N.lor (nth (j / 4) g 0) (shl32 (nth j buf 0) (8 * (3 - N.of_nat j mod 4)))).

Lemma put_four buf g k : (k < length g)%nat -> nth k g 0 = 0 -> bytes buf ->
  fold_left (sha256_put buf) [4 * k; 4 * k + 1; 4 * k + 2; 4 * k + 3]%nat g =
  upd g k (be_value [nth (4 * k) buf 0; nth (4 * k + 1) buf 0; nth (4 * k + 2) buf 0; nth (4 * k + 3) buf 0]).
Proof.
  intros Hk Z B. cbn [fold_left]. unfold sha256_put.
  assert (D : forall r, (r < 4)%nat -> ((4 * k + r) / 4 = k)%nat /\ N.of_nat (4 * k + r) mod 4 = N.of_nat r).
  { intros r Hr. split.
    - symmetry. apply (Nat.div_unique _ 4 k r); lia.
    - symmetry. apply (N.mod_unique _ 4 (N.of_nat k)); lia. }
  pose proof (D 0%nat ltac:(lia)) as [D0 M0]. pose proof (D 1%nat ltac:(lia)) as [D1 M1].
  pose proof (D 2%nat ltac:(lia)) as [D2 M2]. pose proof (D 3%nat ltac:(lia)) as [D3 M3].
  rewrite Nat.add_0_r in D0, M0. rewrite D0, D1, D2, D3, M0, M1, M2, M3.
  rewrite !upd_upd, !nth_upd_eq by (rewrite ?upd_length; exact Hk). rewrite Z, N.lor_0_l.
  change (8 * (3 - N.of_nat 0)) with 24. change (8 * (3 - N.of_nat 1)) with 16. change (8 * (3 - N.of_nat 2)) with 8.
  change (8 * (3 - N.of_nat 3)) with 0.
  rewrite (shl_byte (nth (4 * k + 3) buf 0) 0) by (try discriminate; now apply byte_nth).
  change (2 ^ 0) with 1. rewrite N.mul_1_r. f_equal. apply be_word; now apply byte_nth.
Qed.

Lemma sha256_fill buf : bytes buf -> forall n, (n <= 16)%nat ->
  let g := fold_left (sha256_put buf) (seq 0 (4 * n)) (repeat 0 64) in
  length g = 64%nat /\
  (forall i, (i < n)%nat -> nth i g 0 = be_value [nth (4 * i) buf 0; nth (4 * i + 1) buf 0; nth (4 * i + 2) buf 0; nth (4 * i + 3) buf 0]) /\
  (forall i, (n <= i)%nat -> nth i g 0 = 0).
Proof.
  intros B. induction n as [|n IH]; intros Hn g.
  - unfold g. cbn [Nat.mul seq fold_left]. split; [apply repeat_length|]. split; [intros; lia|]. intros i _. apply nth_repeat.
  - unfold g. replace (4 * S n)%nat with (4 * n + 4)%nat by lia. rewrite seq_app, fold_left_app. cbn [Nat.add seq].
    destruct (IH ltac:(lia)) as (L & P1 & P2). set (g0 := fold_left (sha256_put buf) (seq 0 (4 * n)) (repeat 0 64)) in *.
    replace [4 * n; S (4 * n); S (S (4 * n)); S (S (S (4 * n)))]%nat with [4 * n; 4 * n + 1; 4 * n + 2; 4 * n + 3]%nat
      by (repeat (f_equal; try lia)).
    rewrite put_four; [|lia|apply P2; lia|exact B]. split; [rewrite upd_length; exact L|]. split.
    + intros i Hi. destruct (Nat.eq_dec i n) as [->|ne]; [now rewrite nth_upd_eq by lia|].
      rewrite nth_upd_neq by auto. apply P1. lia.
    + intros i Hi. rewrite nth_upd_neq by lia. apply P2. lia.
Qed.

Lemma sha256_group_ok buf : bytes buf -> length buf = 64%nat ->
  length (sha256_group buf) = 64%nat /\
  forall i, (i < 16)%nat -> nth i (sha256_group buf) 0 = nth i (map be_value (pieces 4 buf)) 0.
Proof.
  intros B L. destruct (sha256_fill buf B 16 (le_n 16)) as (L1 & P & _).
  assert (E : sha256_group buf = fold_left (sha256_put buf) (seq 0 (4 * 16)) (repeat 0 64)).
  { unfold sha256_group. change (4 * 16)%nat with 64%nat. reflexivity. }
  rewrite <- E in L1, P. clear E.
  split; [exact L1|]. intros i Hi. rewrite P by exact Hi. rewrite words_map by exact L.
  set (f := fun j => be_value [nth (4 * j) buf 0; nth (4 * j + 1) buf 0; nth (4 * j + 2) buf 0; nth (4 * j + 3) buf 0]).
  change (f i = nth i (map f (seq 0 16)) 0).
  rewrite (nth_indep (map f (seq 0 16)) 0 (f 0%nat)) by (rewrite map_length, seq_length; exact Hi).
  rewrite map_nth. now rewrite seq_nth by exact Hi.
Qed.

Lemma sha256_k_table : map (fun t => nth t sha256_round_constant 0) (seq 0 64) = map sha256_K (seq 0 64).
Proof. vm_compute. reflexivity. Qed.

Lemma word_K t : word (sha256_K t).
Proof. unfold word, sha256_K. apply N.mod_lt. discriminate. Qed.

Definition sha256_g (w : list N) : N :=
  let t := length w in
  sum [sigma1 (nth (t - 2) w 0); nth (t - 7) w 0; sigma0 (nth (t - 15) w 0); nth (t - 16) w 0].

Lemma Gamma0_ok x : word x -> sha256_Gamma0256 x = sigma0 x.
Proof. intros H. unfold sha256_Gamma0256, sigma0. now rewrite !rotr_ok, shr_ok by (auto; discriminate). Qed.
Lemma Gamma1_ok x : word x -> sha256_Gamma1256 x = sigma1 x.
Proof. intros H. unfold sha256_Gamma1256, sigma1. now rewrite !rotr_ok, shr_ok by (auto; discriminate). Qed.
Lemma Sigma0_ok x : word x -> sha256_Sigma0256 x = Sigma0 x.
Proof. intros H. unfold sha256_Sigma0256, Sigma0. now rewrite !rotr_ok by (auto; discriminate). Qed.
Lemma Sigma1_ok x : word x -> sha256_Sigma1256 x = Sigma1 x.
Proof. intros H. unfold sha256_Sigma1256, Sigma1. now rewrite !rotr_ok by (auto; discriminate). Qed.
Lemma word_sigma0 x : word x -> word (sigma0 x).
Proof. intros H. unfold sigma0. repeat apply word_lxor; try (apply word_rotr; [discriminate|exact H]). now apply word_div. Qed.
Lemma word_sigma1 x : word x -> word (sigma1 x).
Proof. intros H. unfold sigma1. repeat apply word_lxor; try (apply word_rotr; [discriminate|exact H]). now apply word_div. Qed.
Lemma word_Sigma0 x : word x -> word (Sigma0 x).
Proof. intros H. unfold Sigma0. repeat apply word_lxor; apply word_rotr; (discriminate || exact H). Qed.
Lemma word_Sigma1 x : word x -> word (Sigma1 x).
Proof. intros H. unfold Sigma1. repeat apply word_lxor; apply word_rotr; (discriminate || exact H). Qed.
Lemma Ch_ok x y z : word x -> sha256_Ch x y z = Ch x y z.
Proof. intros H. unfold sha256_Ch, Ch. now rewrite not32_neg. Qed.
Lemma word_Ch x y z : word x -> word (Ch x y z).
Proof. intros H. unfold Ch. apply word_lxor; apply word_land; [exact H|apply word_neg]. Qed.
Lemma word_Maj x y z : word x -> word y -> word (Maj x y z).
Proof. intros H H'. unfold Maj. repeat apply word_lxor; now apply word_land. Qed.

Lemma sum_add4 a b c d : add (add (add a b) c) d = sum [a; b; c; d].
Proof. rewrite <- sum4. reflexivity. Qed.
Lemma sum_add5 a b c d e : add (add (add (add a b) c) d) e = sum [a; b; c; d; e].
Proof.
  rewrite sum_add4. unfold add, sum. cbn [fold_right]. rewrite N.add_mod_idemp_l by discriminate. f_equal. lia.
Qed.

Lemma sha256_sched_words block : Forall word block -> forall n, Forall word (Nat.iter n sha256_next block).
Proof.
  intros B. induction n as [|n IH]; [exact B|]. cbn [Nat.iter nat_rect]. fold (Nat.iter n sha256_next block).
  unfold sha256_next at 1. apply Forall_app. split; [exact IH|]. constructor; [apply word_sum|constructor].
Qed.

(** The array before turn [j]. *)
Definition filled (w : list N) (j : nat) (g : list N) : Prop :=
  length g = 64%nat /\ forall i, (i < Nat.max j 16)%nat -> nth i g 0 = nth i w 0.

Definition tuple (v : sha256_regs) : eight := (h0 v, h1 v, h2 v, h3 v, (h4 v, h5 v, h6 v, h7 v)).
Definition words8 (v : sha256_regs) : Prop :=
  word (h0 v) /\ word (h1 v) /\ word (h2 v) /\ word (h3 v) /\ word (h4 v) /\ word (h5 v) /\ word (h6 v) /\ word (h7 v).

Lemma sha256_step_ok block t g v : length block = 16%nat -> Forall word block -> (t < 64)%nat ->
  let w := Nat.iter 48 sha256_next block in
  filled w t g -> words8 v ->
  filled w (S t) (fst (sha256_step (g, v) t)) /\
  tuple (snd (sha256_step (g, v) t)) = sha256_round w (tuple v) t /\ words8 (snd (sha256_step (g, v) t)).
Proof.
  intros L B Ht w (GL & GF) Hv.
  assert (WN : forall i, word (nth i w 0)) by (intros i; apply word_nth; now apply sha256_sched_words).
  unfold sha256_step. set (g' := if (16 <=? t)%nat then _ else g).
  assert (F : filled w (S t) g').
  { unfold g'. destruct (Nat.leb_spec 16 t) as [C|C].
    - split; [rewrite upd_length; exact GL|]. intros i Hi. destruct (Nat.eq_dec i t) as [->|ne].
      + rewrite nth_upd_eq by lia. rewrite !GF by lia.
        rewrite Gamma0_ok, Gamma1_ok by apply WN.
        pose proof (word_sigma0 _ (WN (t - 15)%nat)). pose proof (word_sigma1 _ (WN (t - 2)%nat)).
        rewrite (safe_add_ok (sigma1 _)) by auto. rewrite (safe_add_ok (add _ _)) by auto using word_add.
        rewrite (safe_add_ok (add _ _)) by auto using word_add. rewrite sum_add4.
        pose proof (sched_new sha256_g block 48 (t - 16) ltac:(lia)) as S.
        change (nth (length block + (t - 16)) w 0 = sha256_g (Nat.iter (t - 16) sha256_next block)) in S.
        rewrite L in S. replace (16 + (t - 16))%nat with t in S by lia. rewrite S. unfold sha256_g. cbv zeta.
        assert (LW : length (Nat.iter (t - 16) sha256_next block) = t).
        { etransitivity; [apply (sched_length sha256_g)|]. lia. }
        rewrite LW.
        assert (P : forall i, (i < t)%nat -> nth i (Nat.iter (t - 16) sha256_next block) 0 = nth i w 0).
        { intros k Hk. symmetry. unfold w. apply (sched_nth_prefix sha256_g block (t - 16) 48 k); lia. }
        rewrite !P by lia. reflexivity.
      + rewrite nth_upd_neq by auto. apply GF. lia.
    - split; [exact GL|]. intros i Hi. apply GF. lia. }
  cbn [fst snd]. split; [exact F|]. clearbody g'. destruct F as [_ F].
  rewrite (F t) by lia. rewrite (map_seq_inj _ _ 64 sha256_k_table t Ht).
  destruct v as [a b c d e f gg h]. destruct Hv as (Va & Vb & Vc & Vd & Ve & Vf & Vg & Vh). cbn [h0 h1 h2 h3 h4 h5 h6 h7] in *.
  rewrite Sigma0_ok, Sigma1_ok, Ch_ok by auto. change (sha256_Maj a b c) with (Maj a b c).
  pose proof (word_Sigma0 a Va). pose proof (word_Sigma1 e Ve). pose proof (word_Ch e f gg Ve). pose proof (word_Maj a b c Va Vb).
  pose proof (word_K t). pose proof (WN t).
  rewrite (safe_add_ok h) by auto. rewrite (safe_add_ok (add h _)) by auto using word_add.
  rewrite (safe_add_ok (add (add h _) _)) by auto using word_add.
  rewrite (safe_add_ok (add (add (add h _) _) _)) by auto using word_add. rewrite sum_add5.
  rewrite (safe_add_ok (Sigma0 a)) by auto.
  rewrite (safe_add_ok (sum _)) by (try apply word_sum; apply word_add).
  rewrite (safe_add_ok d) by (auto; apply word_sum).
  split.
  - unfold tuple, sha256_round. cbn [h0 h1 h2 h3 h4 h5 h6 h7].
    replace (sum [Sigma0 a; Maj a b c]) with (add (Sigma0 a) (Maj a b c)); [reflexivity|].
    unfold add, sum. cbn [fold_right]. f_equal. lia.
  - unfold words8. cbn [h0 h1 h2 h3 h4 h5 h6 h7]. auto 10 using word_add.
Qed.

Lemma sha256_fold_ok block g : length block = 16%nat -> Forall word block -> length g = 64%nat ->
  (forall i, (i < 16)%nat -> nth i g 0 = nth i block 0) ->
  forall n v, (n <= 64)%nat -> words8 v ->
  let w := Nat.iter 48 sha256_next block in
  let r := fold_left sha256_step (seq 0 n) (g, v) in
  filled w n (fst r) /\ tuple (snd r) = fold_left (sha256_round w) (seq 0 n) (tuple v) /\ words8 (snd r).
Proof.
  intros L B GL GF n v. induction n as [|n IH]; intros Hn Hv w r.
  - unfold r. cbn [seq fold_left fst snd]. split; [|split; [reflexivity|exact Hv]]. split; [exact GL|]. intros i Hi.
    rewrite GF by lia. symmetry. apply (sched_old sha256_g block 48 i). lia.
  - unfold r. rewrite seq_S, !fold_left_app. cbn [fold_left Nat.add].
    destruct (IH ltac:(lia) Hv) as (R & E & W). fold w in R, E.
    destruct (fold_left sha256_step (seq 0 n) (g, v)) as [g' v']. cbn [fst snd] in R, E, W.
    rewrite <- E. apply (sha256_step_ok block n g' v'); auto.
Qed.

Lemma sha256_block_ok h buf : words8 h -> length buf = 64%nat -> bytes buf ->
  tuple (sha256_calc_block h buf) = sha256_compress (tuple h) buf /\ words8 (sha256_calc_block h buf).
Proof.
  intros Hh L B. pose proof (be_words buf B L) as BW. destruct (sha256_group_ok buf B L) as [GL GF].
  assert (LW : length (map be_value (pieces 4 buf)) = 16%nat) by (rewrite map_length; apply (pieces_length 4 16); [lia|exact L]).
  destruct (sha256_fold_ok _ _ LW BW GL GF 64 h (le_n 64) Hh) as (_ & E & W).
  unfold sha256_calc_block, sha256_compress, sha256_schedule. cbn [tuple].
  change (tuple h) with (h0 h, h1 h, h2 h, h3 h, (h4 h, h5 h, h6 h, h7 h)) in *. cbv iota beta. rewrite <- E.
  destruct (fold_left sha256_step _ _) as [g [a b c d e f gg hh]]. cbn [snd] in W. unfold tuple in *.
  destruct W as (W0 & W1 & W2 & W3 & W4 & W5 & W6 & W7). destruct Hh as (V0 & V1 & V2 & V3 & V4 & V5 & V6 & V7).
  cbn [snd h0 h1 h2 h3 h4 h5 h6 h7] in *.
  rewrite !safe_add_ok by assumption. split; [reflexivity|]. unfold words8. cbn [h0 h1 h2 h3 h4 h5 h6 h7]. auto 10 using word_add.
Qed.
