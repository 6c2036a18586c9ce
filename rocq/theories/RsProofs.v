(** * Reed-Solomon coding: proofs *)

From Coq Require Import List Arith NArith Lia Bool Ring Ring_theory.
From Coq.Strings Require Import Byte.
Require Import ZifyBool ZifyNat ZifyN.
From Verif Require Import Base GaussModel GaussSpec GaussProofs RsModel RsSpec GfProofs.
Import ListNotations.
Local Open Scope nat_scope.

Add Ring gf_r : gf_ring.

Notation bsum := (sum byte x00 gf_add).
Notation bentry := (entry byte x00).

(** ** Powers *)

Lemma mod_64_256 x : ((x mod 2 ^ 64) mod 256 = x mod 256)%N.
Proof.
  change (2 ^ 64)%N with (256 * 72057594037927936)%N.
  rewrite N.mod_mul_r by discriminate.
  rewrite (N.mul_comm 256), N.mod_add, N.mod_mod by discriminate. reflexivity.
Qed.

Lemma mulmod a b c d : (a mod 256 = c mod 256 -> b mod 256 = d mod 256 ->
  (a * b) mod 256 = (c * d) mod 256)%N.
Proof. intros H1 H2. rewrite N.mul_mod, H1, H2, <- N.mul_mod by discriminate. reflexivity. Qed.

Lemma power_loop_spec save exp i base :
  (power_loop save exp i base mod 256
   = (base ^ (2 ^ N.of_nat i) * save ^ (exp mod 2 ^ N.of_nat i)) mod 256)%N.
Proof.
  revert base. induction i as [|i IH]; intros base; cbn [power_loop].
  - change (2 ^ N.of_nat 0)%N with 1%N. rewrite N.mod_1_r, N.pow_1_r, N.pow_0_r, N.mul_1_r. reflexivity.
  - cbv zeta. rewrite IH. clear IH. rewrite Nat2N.inj_succ.
    set (q := (2 ^ N.of_nat i)%N).
    assert (Hq : (2 ^ N.succ (N.of_nat i) = 2 * q)%N) by (rewrite N.pow_succ_r'; reflexivity).
    assert (Hq0 : q <> 0%N) by (apply N.pow_nonzero; discriminate).
    rewrite Hq.
    assert (E : (exp mod (2 * q) = (if N.testbit exp (N.of_nat i) then q else 0) + exp mod q)%N).
    { rewrite (N.mul_comm 2 q), N.mod_mul_r by (exact Hq0 || discriminate).
      rewrite N.testbit_eqb. fold q.
      assert (H2 : ((exp / q) mod 2 < 2)%N) by (apply N.mod_lt; discriminate).
      set (b := ((exp / q) mod 2)%N) in *. clearbody b. clearbody q.
      destruct (N.eqb_spec b 1) as [->|Hb]; [lia|]. replace b with 0%N by lia. lia. }
    rewrite E. rewrite N.pow_add_r.
    assert (P : (((base * base) mod 2 ^ 64) mod 256 = (base * base) mod 256)%N) by apply mod_64_256.
    assert (Pw : forall a b e, (a mod 256 = b mod 256 -> (a ^ e) mod 256 = (b ^ e) mod 256)%N).
    { intros a b e Hab. induction e using N.peano_ind; [reflexivity|].
      rewrite !N.pow_succ_r'. apply mulmod; assumption. }
    destruct (N.testbit exp (N.of_nat i)).
    + rewrite N.mul_assoc. apply mulmod; [|reflexivity].
      rewrite (Pw _ (base * base * save)%N).
      2:{ rewrite mod_64_256. apply mulmod; [exact P|reflexivity]. }
      rewrite !N.pow_mul_l. rewrite N.mul_comm with (n := 2%N), N.pow_mul_r, N.pow_2_r.
      f_equal.
    + rewrite N.pow_0_r, N.mul_1_l. apply mulmod; [|reflexivity].
      rewrite (Pw _ (base * base)%N) by exact P.
      rewrite !N.pow_mul_l. rewrite N.mul_comm with (n := 2%N), N.pow_mul_r, N.pow_2_r. reflexivity.
Qed.

Lemma top_bit_spec exp i :
  match top_bit exp i with
  | None => (exp mod 2 ^ N.of_nat i = 0)%N
  | Some t => (exp mod 2 ^ N.of_nat i = 2 ^ N.of_nat t + exp mod 2 ^ N.of_nat t)%N
  end.
Proof.
  induction i as [|i IH]; cbn [top_bit].
  - change (2 ^ N.of_nat 0)%N with 1%N. apply N.mod_1_r.
  - assert (E : (exp mod 2 ^ N.of_nat (S i)
               = (if N.testbit exp (N.of_nat i) then 2 ^ N.of_nat i else 0) + exp mod 2 ^ N.of_nat i)%N).
    { rewrite Nat2N.inj_succ, N.pow_succ_r'.
      set (q := (2 ^ N.of_nat i)%N).
      assert (Hq0 : q <> 0%N) by (apply N.pow_nonzero; discriminate).
      rewrite (N.mul_comm 2 q), N.mod_mul_r by (exact Hq0 || discriminate).
      rewrite N.testbit_eqb. fold q.
      assert (H2 : ((exp / q) mod 2 < 2)%N) by (apply N.mod_lt; discriminate).
      set (b := ((exp / q) mod 2)%N) in *. clearbody b. clearbody q. clear IH.
      destruct (N.eqb_spec b 1) as [->|Hb]; [lia|]. replace b with 0%N by lia. lia. }
    destruct (N.testbit exp (N.of_nat i)).
    + exact E.
    + rewrite E, N.add_0_l. exact IH.
Qed.

Lemma power_calc_spec base exp :
  (power_calc base exp mod 256 = base ^ (exp mod 2 ^ 64) mod 256)%N.
Proof.
  unfold power_calc. pose proof (top_bit_spec exp 64) as T.
  change (N.of_nat 64) with 64%N in T.
  destruct (top_bit exp 64) as [t|].
  - rewrite power_loop_spec, T, N.pow_add_r. reflexivity.
  - rewrite T. reflexivity.
Qed.

(** The coefficient of data block [c] in parity block [j]. *)
Definition coef (j c : nat) : byte := b8 (N.of_nat (S c) ^ (N.of_nat j mod 2 ^ 64)).

Lemma b8_mod a b : (a mod 256 = b mod 256)%N -> b8 a = b8 b.
Proof. intros H. unfold b8. rewrite H. reflexivity. Qed.

Lemma parity_row_length n j : length (parity_row n j) = n.
Proof. unfold parity_row. rewrite map_length, seq_length. reflexivity. Qed.

Lemma parity_row_nth n j c : c < n -> nth c (parity_row n j) x00 = coef j c.
Proof.
  intros H. unfold parity_row.
  set (f := fun k => b8 (power_calc (N.of_nat k) (N.of_nat j))).
  rewrite (nth_indep _ _ (f 0)) by (rewrite map_length, seq_length; exact H).
  rewrite map_nth, seq_nth by exact H. unfold f, coef. apply b8_mod.
  rewrite power_calc_spec. reflexivity.
Qed.

(** ** Rows and blocks *)

Lemma rows_length n len l : length (rows n len l) = n.
Proof. revert l; induction n; intros l; cbn [rows length]; auto. Qed.

Lemma rows_nth n len l i : i < n -> nth i (rows n len l) [] = block len l i.
Proof.
  revert l i. induction n; intros l i H; [lia|]. cbn [rows]. destruct i; cbn [nth].
  - unfold block. reflexivity.
  - rewrite IHn by lia. unfold block.
    replace (S i * len) with (len + i * len) by lia.
    f_equal. clear. revert l. induction len as [|len IH]; intros l; [reflexivity|].
    generalize (i * S len). intros q. 
    assert (G : forall (a : nat) (l : list byte), skipn q (skipn a l) = skipn (a + q) l).
    { induction a; intros l0; [reflexivity|]. destruct l0; [destruct q; reflexivity|]. cbn [skipn Nat.add]. apply IHa. }
    apply G.
Qed.

Lemma rows_concat n len l : length l = n * len -> concat (rows n len l) = l.
Proof.
  revert l. induction n; intros l H; cbn [rows concat].
  - destruct l; [reflexivity|discriminate H].
  - rewrite IHn by (rewrite skipn_length; lia). apply firstn_skipn.
Qed.

Lemma block_length len l i m : length l = m * len -> i < m -> length (block len l i) = len.
Proof. intros H Hi. unfold block. rewrite firstn_length, skipn_length. nia. Qed.

Lemma rows_shape n len l : length l = n * len -> shape byte (rows n len l) n len.
Proof.
  intros H. apply shape_intro; [apply rows_length|]. intros i Hi. unfold row.
  rewrite rows_nth by exact Hi. apply block_length with (m := n); assumption.
Qed.

Lemma block_concat (m : rs_mat) r len i :
  shape byte m r len -> i < r -> block len (concat m) i = nth i m [].
Proof.
  intros [H1 H2]. revert r i H1. induction m as [|x m IH]; intros r i H1 Hi; cbn in H1; [lia|].
  pose proof (Forall_inv H2) as Hx. cbv beta in Hx. apply Forall_inv_tail in H2.
  unfold block. cbn [concat]. destruct i as [|i]; cbn [nth].
  - cbn [Nat.mul skipn]. rewrite firstn_app, Hx, Nat.sub_diag. cbn [firstn]. rewrite app_nil_r.
    rewrite <- Hx. apply firstn_all.
  - replace (S i * len) with (len + i * len) by lia.
    rewrite skipn_app, Hx. rewrite skipn_all2 by lia.
    replace (len + i * len - len) with (i * len) by lia. cbn [app].
    apply (IH H2 (length m) i eq_refl). lia.
Qed.

Lemma concat_length' (m : rs_mat) r len : shape byte m r len -> length (concat m) = r * len.
Proof.
  intros [H1 H2]. revert r H1. induction m as [|x m IH]; intros r H1; cbn in *.
  - subst r. reflexivity.
  - inversion H2 as [|? ? Hx H2']; subst. rewrite app_length, (IH H2' (length m) eq_refl). lia.
Qed.

Lemma mat_ext (a b : rs_mat) r c :
  shape byte a r c -> shape byte b r c ->
  (forall i j, i < r -> j < c -> bentry a i j = bentry b i j) -> a = b.
Proof.
  intros Ha Hb H. apply nth_ext with (d := []) (d' := []); [destruct Ha, Hb; congruence|].
  intros i Hi. pose proof (proj1 Ha) as La. rewrite La in Hi.
  pose proof (shape_row byte a r c i Ha Hi) as Ra. pose proof (shape_row byte b r c i Hb Hi) as Rb.
  unfold row in Ra, Rb.
  apply nth_ext with (d := x00) (d' := x00); [congruence|].
  intros j Hj. apply (H i j Hi). lia.
Qed.

(** ** The coefficient matrix *)

Definition co_row (n i : nat) : list byte :=
  if Nat.ltb i n then unit_row byte x00 x01 n i else parity_row n (i - n).

Lemma co_row_length n i : length (co_row n i) = n.
Proof.
  unfold co_row. destruct (Nat.ltb i n); [apply unit_row_length|apply parity_row_length].
Qed.

Lemma co_matrix_length n k : length (co_matrix n k) = n + k.
Proof.
  unfold co_matrix. rewrite app_length, map_length, seq_length.
  rewrite (proj1 (ident_shape byte x00 x01 n)). reflexivity.
Qed.

Lemma co_matrix_row n k i : i < n + k -> nth i (co_matrix n k) [] = co_row n i.
Proof.
  intros H. unfold co_matrix, co_row. pose proof (proj1 (ident_shape byte x00 x01 n)) as L.
  destruct (Nat.ltb_spec i n).
  - rewrite app_nth1 by lia. apply (ident_row byte x00 x01 n i H0).
  - rewrite app_nth2 by lia. rewrite L.
    rewrite (nth_indep _ _ (parity_row n 0)) by (rewrite map_length, seq_length; lia).
    rewrite map_nth, seq_nth by lia. reflexivity.
Qed.

Lemma co_matrix_shape n k : shape byte (co_matrix n k) (n + k) n.
Proof.
  apply shape_intro; [apply co_matrix_length|]. intros i Hi. unfold row.
  rewrite co_matrix_row by exact Hi. apply co_row_length.
Qed.

Definition co (n i j : nat) : byte := nth j (co_row n i) x00.

Lemma co_data_entry n i j : i < n -> j < n -> co n i j = if Nat.eqb i j then x01 else x00.
Proof.
  intros Hi Hj. unfold co, co_row. destruct (Nat.ltb_spec i n); [|lia].
  rewrite unit_row_nth by exact Hj. rewrite Nat.eqb_sym. reflexivity.
Qed.

Lemma co_parity_entry n i j : j < n -> co n (n + i) j = coef i j.
Proof.
  intros Hj. unfold co, co_row. destruct (Nat.ltb_spec (n + i) n); [lia|].
  rewrite parity_row_nth by exact Hj. f_equal. lia.
Qed.

(** ** Encoding *)

(** Byte [c] of block [i]. *)
Definition bat (len : nat) (data : list byte) (i c : nat) : byte := nth c (block len data i) x00.

Definition enc_of (len n k : nat) (data : list byte) : list byte :=
  concat (rs_mul (co_matrix n k) (rows n len data) len).

Lemma enc_product len n k data : length data = n * len ->
  is_product byte x00 gf_add gf_mul (co_matrix n k) (rows n len data)
    (rs_mul (co_matrix n k) (rows n len data) len) (n + k) n len.
Proof.
  intros H. apply (mat_mul_product byte x00 x01 gf_add gf_add gf_mul (fun x => x) gf_ring).
  - apply co_matrix_shape.
  - apply rows_shape, H.
Qed.

Lemma enc_length len n k data : length data = n * len ->
  length (enc_of len n k data) = (n + k) * len.
Proof. intros H. apply concat_length', (enc_product len n k data H). Qed.

Lemma enc_entry len n k data i c : length data = n * len -> i < n + k -> c < len ->
  bat len (enc_of len n k data) i c = bsum n (fun l => gf_mul (co n i l) (bat len data l c)).
Proof.
  intros H Hi Hc. pose proof (enc_product len n k data H) as [P1 P2].
  unfold bat at 1, enc_of. rewrite (block_concat _ (n + k)) by assumption.
  pose proof (P2 i c Hi Hc) as E. unfold GaussSpec.entry at 1 in E. rewrite E.
  apply sum_ext. intros l Hl. f_equal.
  - unfold GaussSpec.entry, co. rewrite co_matrix_row by exact Hi. reflexivity.
  - unfold GaussSpec.entry, bat. rewrite rows_nth by exact Hl. reflexivity.
Qed.

Lemma enc_block_length len n k data i : length data = n * len -> i < n + k ->
  length (block len (enc_of len n k data) i) = len.
Proof. intros H Hi. apply block_length with (m := n + k); [apply enc_length, H|exact Hi]. Qed.

Lemma block_ext len l1 l2 i1 i2 :
  length (block len l1 i1) = len -> length (block len l2 i2) = len ->
  (forall c, c < len -> bat len l1 i1 c = bat len l2 i2 c) -> block len l1 i1 = block len l2 i2.
Proof.
  intros H1 H2 H. apply nth_ext with (d := x00) (d' := x00); [congruence|].
  intros c Hc. apply H. lia.
Qed.

Lemma enc_data len n k data i : length data = n * len -> i < n ->
  block len (enc_of len n k data) i = block len data i.
Proof.
  intros H Hi. apply block_ext.
  - apply enc_block_length; [exact H|lia].
  - apply block_length with (m := n); assumption.
  - intros c Hc. rewrite enc_entry by (assumption || lia).
    rewrite (sum_ext byte x00 gf_add n _ (fun l => gf_mul (if Nat.eqb i l then x01 else x00) (bat len data l c))).
    + apply (sum_delta_l byte x00 x01 gf_add gf_add gf_mul (fun x => x) gf_ring n i (fun l => bat len data l c) Hi).
    + intros l Hl. rewrite co_data_entry by assumption. reflexivity.
Qed.

Lemma to_N_sum n f : to_N (bsum n f) = xor_sum n (fun i => to_N (f i)).
Proof. induction n; cbn [sum xor_sum]; [reflexivity|]. rewrite to_N_add, IHn. reflexivity. Qed.

Lemma xor_sum_ext n f h : (forall i, i < n -> f i = h i) -> xor_sum n f = xor_sum n h.
Proof.
  induction n; intros H; cbn [xor_sum]; [reflexivity|].
  rewrite IHn by (intros; apply H; lia). rewrite H by lia. reflexivity.
Qed.

Lemma enc_encoding len n k data : length data = n * len -> (N.of_nat k <= 2 ^ 64)%N ->
  encoding len n k data (enc_of len n k data).
Proof.
  intros H Hk. split; [apply enc_length, H|]. split.
  - intros i Hi. apply enc_data; assumption.
  - intros j c Hj Hc. unfold at_. fold (bat len (enc_of len n k data) (n + j) c).
    rewrite enc_entry by (assumption || lia). rewrite to_N_sum. apply xor_sum_ext.
    intros i Hi. rewrite gf_mul_times. f_equal.
    rewrite co_parity_entry by exact Hi. unfold coef. rewrite to_N_b8.
    rewrite (N.mod_small (N.of_nat j)) by lia. reflexivity.
Qed.

Lemma rs_encode_some len n k data r :
  rs_encode data len n k = Some r ->
  0 < len /\ 0 < n /\ 0 < k /\ r = mkRR (enc_of len n k data) (n + k) ((n + k) * len).
Proof.
  unfold rs_encode. destruct (Nat.eqb_spec len 0), (Nat.eqb_spec n 0), (Nat.eqb_spec k 0);
    cbn [orb]; try discriminate. intros E. injection E as <-. repeat split; lia.
Qed.

(** ** Which blocks the decoder uses *)

Fixpoint arr (i : nat) (v : list (option (list byte))) : list nat :=
  match v with
  | [] => []
  | Some _ :: v' => i :: arr (S i) v'
  | None :: v' => arr (S i) v'
  end.

Lemma arr_filter i v :
  arr i v = filter (fun j => present (nth (j - i) v None)) (seq i (length v)).
Proof.
  revert i. induction v as [|o v IH]; intros i; cbn [arr length seq filter]; [reflexivity|].
  replace (i - i) with 0 by lia. cbn [nth].
  assert (E : arr (S i) v = filter (fun j => present (nth (j - i) (o :: v) None)) (seq (S i) (length v))).
  { rewrite IH. apply filter_ext_in. intros j Hj. apply in_seq in Hj.
    replace (j - i) with (S (j - S i)) by lia. reflexivity. }
  destruct o; cbn [present]; [rewrite E; reflexivity|exact E].
Qed.

Lemma arr_arrived v : arr 0 v = arrived v.
Proof.
  rewrite arr_filter. apply filter_ext. intros j. rewrite Nat.sub_0_r. reflexivity.
Qed.

Lemma arr_survivors i v : length (arr i v) = survivors v.
Proof.
  revert i. induction v as [|[b|] v IH]; intros i; cbn; [reflexivity| |apply IH].
  f_equal. apply IH.
Qed.

Lemma arr_shift i j v : arr (i + j) v = map (fun x => i + x) (arr j v).
Proof.
  revert j. induction v as [|[b|] v IH]; intros j; cbn [arr map]; [reflexivity| |].
  - f_equal. rewrite <- IH. f_equal. lia.
  - rewrite <- IH. f_equal. lia.
Qed.

Lemma arr_app i v w : arr i (v ++ w) = arr i v ++ arr (i + length v) w.
Proof.
  revert i. induction v as [|[b|] v IH]; intros i; cbn [app arr length].
  - rewrite Nat.add_0_r. reflexivity.
  - rewrite IH. cbn [app]. do 3 f_equal. lia.
  - rewrite IH. do 2 f_equal. lia.
Qed.

Lemma arr_length_le i v : length (arr i v) <= length v.
Proof. revert i. induction v as [|[b|] v IH]; intros i; cbn; [lia| |]; specialize (IH (S i)); lia. Qed.

Lemma arr_in i v j : In j (arr i v) <-> i <= j < i + length v /\ nth (j - i) v None <> None.
Proof.
  rewrite arr_filter, filter_In, in_seq. split; intros [H1 H2]; (split; [exact H1|]).
  - destruct (nth (j - i) v None); [discriminate|discriminate H2].
  - destruct (nth (j - i) v None); [reflexivity|contradiction].
Qed.

Lemma co_data_eq n i r v : r <= length v ->
  co_data n i r v = Some (map (unit_row byte x00 x01 n) (arr i (firstn r v))).
Proof.
  revert i v. induction r as [|r IH]; intros i v H; cbn [co_data firstn]; [reflexivity|].
  destruct v as [|[b|] v]; cbn [length] in H; [lia| |].
  - rewrite IH by lia. reflexivity.
  - rewrite IH by lia. reflexivity.
Qed.

Lemma co_parity_eq n i need v :
  co_parity n i need v
  = if Nat.leb need (length (arr i v))
    then Some (map (parity_row n) (firstn need (arr i v))) else None.
Proof.
  revert i need. induction v as [|[b|] v IH]; intros i [|need]; try reflexivity;
    cbn [co_parity arr length].
  - rewrite IH. destruct (Nat.leb_spec need (length (arr (S i) v))).
    + destruct (Nat.leb_spec (S need) (S (length (arr (S i) v)))); [|lia]. reflexivity.
    + destruct (Nat.leb_spec (S need) (S (length (arr (S i) v)))); [lia|]. reflexivity.
  - rewrite IH. reflexivity.
Qed.

(** The blocks that are used. *)
Definition used (n : nat) (v : list (option (list byte))) : list nat := firstn n (arr 0 v).

Lemma used_split n v :
  used n v = arr 0 (firstn n v) ++
    map (fun x => n + x) (firstn (n - length (arr 0 (firstn n v))) (arr 0 (skipn n v))).
Proof.
  unfold used. destruct (Nat.le_gt_cases n (length v)) as [H|H].
  - rewrite <- (firstn_skipn n v) at 1. rewrite arr_app, firstn_app.
    rewrite firstn_length, Nat.min_l, Nat.add_0_l by exact H.
    pose proof (arr_length_le 0 (firstn n v)) as L. rewrite firstn_length, Nat.min_l in L by exact H.
    rewrite firstn_all2 by exact L. f_equal.
    replace (arr n (skipn n v)) with (map (fun x => n + x) (arr 0 (skipn n v)))
      by (rewrite <- arr_shift; f_equal; lia).
    rewrite firstn_map. reflexivity.
  - rewrite (firstn_all2 v) by lia. rewrite (skipn_all2 v) by lia. cbn [arr].
    rewrite firstn_nil, app_nil_r. apply firstn_all2. pose proof (arr_length_le 0 v). lia.
Qed.

Lemma used_rows n v : n <= length v ->
  map (co_row n) (used n v)
  = map (unit_row byte x00 x01 n) (arr 0 (firstn n v))
    ++ map (parity_row n) (firstn (n - length (arr 0 (firstn n v))) (arr 0 (skipn n v))).
Proof.
  intros H. rewrite used_split, map_app, map_map. f_equal.
  - apply map_ext_in. intros j Hj. apply arr_in in Hj. rewrite firstn_length in Hj.
    unfold co_row. destruct (Nat.ltb_spec j n); [reflexivity|lia].
  - apply map_ext. intros j. unfold co_row. destruct (Nat.ltb_spec (n + j) n); [lia|].
    f_equal. lia.
Qed.

Lemma co_inverse_eq n v : n <= length v ->
  co_inverse v n = if Nat.leb n (survivors v)
                   then Some (snd (rs_invert n (map (co_row n) (used n v)))) else None.
Proof.
  intros H. unfold co_inverse. rewrite co_data_eq by exact H. cbn [obind].
  rewrite co_parity_eq, map_length.
  assert (E : survivors v = length (arr 0 (firstn n v)) + length (arr 0 (skipn n v))).
  { rewrite <- (arr_survivors 0 v). rewrite <- (firstn_skipn n v) at 1.
    rewrite arr_app, app_length. f_equal. rewrite !arr_survivors. reflexivity. }
  pose proof (arr_length_le 0 (firstn n v)) as L. rewrite firstn_length in L.
  destruct (Nat.leb_spec (n - length (arr 0 (firstn n v))) (length (arr 0 (skipn n v)))).
  - destruct (Nat.leb_spec n (survivors v)); [|lia]. cbn [obind].
    rewrite <- used_rows by exact H. reflexivity.
  - destruct (Nat.leb_spec n (survivors v)); [lia|]. reflexivity.
Qed.

Lemma used_length n v : n <= survivors v -> length (used n v) = n.
Proof. intros H. unfold used. rewrite firstn_length, arr_survivors. lia. Qed.

Lemma used_in n v j : In j (used n v) -> j < length v /\ nth j v None <> None.
Proof.
  intros H.
  assert (K : In j (arr 0 v)).
  { unfold used in H. generalize (arr 0 v) H. clear. intros l. revert n.
    induction l as [|a l IH]; intros [|n] H; cbn in *; try contradiction.
    destruct H as [H|H]; [left; exact H|right; apply (IH n H)]. }
  apply arr_in in K. rewrite Nat.sub_0_r in K. split; [lia|apply K].
Qed.

Lemma data_matrix_eq len need v i0 (bl : nat -> list byte) :
  (forall i, length (bl i) = len \/ length v + i0 <= i \/ nth (i - i0) v None = None \/ i < i0) ->
  (forall i b, nth_error v i = Some (Some b) -> b = bl (i0 + i)) ->
  data_matrix len need v = Some (map bl (firstn need (arr i0 v))).
Proof.
  revert need i0. induction v as [|[b|] v IH]; intros [|need] i0 Hl H; try reflexivity;
    cbn [data_matrix arr].
  - assert (Eb : b = bl i0) by (rewrite <- (Nat.add_0_r i0); apply H; reflexivity).
    assert (Lb : length b = len).
    { destruct (Hl i0) as [E|[E|[E|E]]]; [congruence|cbn in E; lia| |lia].
      rewrite Nat.sub_diag in E. discriminate E. }
    unfold read_block. rewrite Lb, Nat.leb_refl. cbn [obind].
    rewrite (IH need (S i0)).
    + cbn [obind firstn map]. rewrite <- Lb, firstn_all, Eb. reflexivity.
    + intros i. destruct (Hl i) as [E|[E|[E|E]]]; [left; exact E| | |].
      * right; left. cbn in E. lia.
      * destruct (Nat.le_gt_cases i i0); [right; right; right; lia|].
        right; right; left. replace (i - i0) with (S (i - S i0)) in E by lia. exact E.
      * right; right; right. lia.
    + intros i b' Hi. replace (S i0 + i) with (i0 + S i) by lia. apply H. exact Hi.
  - apply (IH (S need) (S i0)).
    + intros i. destruct (Hl i) as [E|[E|[E|E]]]; [left; exact E| | |].
      * right; left. cbn in E. lia.
      * destruct (Nat.le_gt_cases i i0); [right; right; right; lia|].
        right; right; left. replace (i - i0) with (S (i - S i0)) in E by lia. exact E.
      * right; right; right. lia.
    + intros i b' Hi. replace (S i0 + i) with (i0 + S i) by lia. apply H. exact Hi.
Qed.

(** ** Decoding *)

Definition surv_mat (n : nat) (v : list (option (list byte))) : rs_mat := map (co_row n) (used n v).

Lemma surv_mat_shape n v : n <= survivors v -> shape byte (surv_mat n v) n n.
Proof.
  intros H. split.
  - unfold surv_mat. rewrite map_length. apply used_length, H.
  - apply Forall_forall. intros r Hr. unfold surv_mat in Hr. apply in_map_iff in Hr.
    destruct Hr as (i & <- & _). apply co_row_length.
Qed.

Lemma surv_mat_entry n v i j : n <= survivors v -> i < n ->
  bentry (surv_mat n v) i j = co n (nth i (used n v) 0) j.
Proof.
  intros H Hi. unfold GaussSpec.entry, surv_mat, co.
  rewrite (nth_indep _ _ (co_row n 0)) by (rewrite map_length, used_length; assumption).
  rewrite map_nth. reflexivity.
Qed.

Definition sing := singular byte x00 gf_add gf_mul.

Lemma rs_decode_cases len n k data v :
  0 < n -> 0 < k -> length data = n * len ->
  received len (n + k) (enc_of len n k data) v -> n <= survivors v ->
  (snd (rs_invert n (surv_mat n v)) <> None /\
   rs_decode v len n k = Some (Some (mkRR data n (n * len)))) \/
  (snd (rs_invert n (surv_mat n v)) = None /\ rs_decode v len n k = Some None).
Proof.
  intros Hn Hk Hd [Hv Hb] Hs.
  unfold rs_decode. destruct (Nat.eqb_spec n 0); [lia|]. destruct (Nat.eqb_spec k 0); [lia|].
  cbn [andb]. rewrite co_inverse_eq by lia.
  destruct (Nat.leb_spec n (survivors v)); [|lia]. cbn [obind].
  fold (surv_mat n v).
  destruct (rs_invert n (surv_mat n v)) as [o' [d'|]] eqn:E; cbn [snd].
  2:{ right. auto. }
  left. split; [discriminate|].
  apply (invert_correct byte x00 x01 gf_add gf_add gf_mul gf_div (fun x => x) gf_better gf_tiny
           gf_ring gf_div_mul gf_div_one gf_tiny_ne) in E; [|apply surv_mat_shape, Hs].
  destruct E as (S1 & L & _).
  rewrite (data_matrix_eq len n v 0 (block len (enc_of len n k data))).
  2:{ intros i. destruct (Nat.lt_ge_cases i (n + k)) as [Hi|Hi].
      - left. apply enc_block_length; assumption.
      - right; left. lia. }
  2:{ intros i b Hi. apply Hb. exact Hi. }
  cbn [obind]. fold (used n v). do 3 f_equal.
  set (m := map (block len (enc_of len n k data)) (used n v)).
  assert (Sm : shape byte m n len).
  { split; [unfold m; rewrite map_length; apply used_length, Hs|].
    apply Forall_forall. intros r Hr. apply in_map_iff in Hr. destruct Hr as (i & <- & Hi).
    apply used_in in Hi. apply enc_block_length; [exact Hd|lia]. }
  assert (P : is_product byte x00 gf_add gf_mul d' m (rs_mul d' m len) n n len).
  { apply (mat_mul_product byte x00 x01 gf_add gf_add gf_mul (fun x => x) gf_ring); assumption. }
  destruct P as [P1 P2].
  transitivity (concat (rows n len data)); [|apply rows_concat, Hd]. f_equal.
  apply (mat_ext _ _ n len); [exact P1|apply rows_shape, Hd|].
  intros i c Hi Hc. rewrite P2 by assumption.
  rewrite (sum_ext byte x00 gf_add n _ (fun l => gf_mul (bentry d' i l)
             (bsum n (fun q => gf_mul (bentry (surv_mat n v) l q) (bat len data q c))))).
  2:{ intros l Hl. f_equal. unfold m, GaussSpec.entry at 1.
      rewrite (nth_indep _ _ (block len (enc_of len n k data) 0))
        by (rewrite map_length, used_length; assumption).
      rewrite map_nth. fold (bat len (enc_of len n k data) (nth l (used n v) 0) c).
      assert (Hin : In (nth l (used n v) 0) (used n v)) by (apply nth_In; rewrite used_length; assumption).
      apply used_in in Hin. rewrite enc_entry by (assumption || lia).
      apply sum_ext. intros q Hq. rewrite surv_mat_entry by assumption. reflexivity. }
  rewrite <- (sum_assoc byte x00 x01 gf_add gf_add gf_mul (fun x => x) gf_ring n n (fun l => bentry d' i l)
               (fun l q => bentry (surv_mat n v) l q) (fun q => bat len data q c)).
  rewrite (sum_ext byte x00 gf_add n _ (fun q => gf_mul (if Nat.eqb i q then x01 else x00) (bat len data q c))).
  2:{ intros q Hq. rewrite L by assumption. reflexivity. }
  rewrite (sum_delta_l byte x00 x01 gf_add gf_add gf_mul (fun x => x) gf_ring n i (fun l => bat len data l c) Hi).
  unfold bat, GaussSpec.entry. rewrite rows_nth by exact Hi. reflexivity.
Qed.

Lemma rs_invert_none n v : n <= survivors v ->
  (snd (rs_invert n (surv_mat n v)) = None <-> sing (surv_mat n v) n).
Proof.
  intros Hs. split.
  - intros E.
    apply (invert_none byte x00 x01 gf_add gf_add gf_mul gf_div (fun x => x) gf_better gf_tiny
             gf_ring gf_div_mul gf_div_one gf_tiny_ne gf_tiny_zero gf_better_nonzero gf_better_zero
             ltac:(discriminate)) in E; [exact E|apply surv_mat_shape, Hs].
  - intros E.
    apply (invert_singular byte x00 x01 gf_add gf_add gf_mul gf_div (fun x => x) gf_better gf_tiny
             gf_ring gf_div_mul gf_div_one gf_tiny_ne); [apply surv_mat_shape, Hs|exact E].
Qed.

(** The kernel of the matrix, by block numbers. *)
Lemma surv_kernel n v x : n <= survivors v ->
  (in_kernel byte x00 gf_add gf_mul (surv_mat n v) n x <->
   forall s, In s (used n v) -> bsum n (fun l => gf_mul (co n s l) (x l)) = x00).
Proof.
  intros Hs. split.
  - intros H s Hin. apply In_nth with (d := 0) in Hin. destruct Hin as (i & Hi & <-).
    rewrite used_length in Hi by exact Hs. etransitivity; [|exact (H i Hi)]. apply sum_ext.
    intros l _. rewrite surv_mat_entry by assumption. reflexivity.
  - intros H i Hi.
    assert (Hin : In (nth i (used n v) 0) (used n v)) by (apply nth_In; rewrite used_length; assumption).
    etransitivity; [|exact (H _ Hin)].
    apply sum_ext. intros l _. rewrite surv_mat_entry by assumption. reflexivity.
Qed.
