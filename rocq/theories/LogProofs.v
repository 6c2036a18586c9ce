(** Proofs about the log. *)

From Coq Require Import String Ascii List Arith NArith ZArith Bool Lia.
Require Import ZifyBool ZifyNat ZifyN.
From Verif Require Import Base HttpModel CalModel CalSpec CalProofs LogModel LogSpec.
Import ListNotations.
Local Open Scope list_scope.
Local Open Scope N_scope.

(** ** Numbers *)

Lemma digit_value_digit : forall d, d < 16 -> digit_value (LogModel.digit d) = d.
Proof. intros d D. unfold digit_value, LogModel.digit. destruct (N.ltb_spec d 10); match goal with |- context [?x <? 58] => destruct (N.ltb_spec x 58) end; lia. Qed.

Lemma is_digit_digit : forall b d, b <= 16 -> d < b -> is_digit b (LogModel.digit d).
Proof.
  intros b d B D. split; [|rewrite digit_value_digit by lia; exact D].
  unfold LogModel.digit. destruct (N.ltb_spec d 10); lia.
Qed.

Lemma digit_zero : forall d, LogModel.digit d = 48 -> d = 0.
Proof. intros d. unfold LogModel.digit. destruct (N.ltb_spec d 10); lia. Qed.

Lemma pow_S : forall b k, b ^ N.of_nat (S k) = b * b ^ N.of_nat k.
Proof. intros. rewrite Nat2N.inj_succ, N.pow_succ_r'. reflexivity. Qed.

Lemma div_pow : forall b n k, 2 <= b -> n < b ^ N.of_nat (S k) -> n / b < b ^ N.of_nat k.
Proof. intros b n k B H. rewrite pow_S in H. apply N.div_lt_upper_bound; lia. Qed.

Lemma div_pow2 : forall b n k, 2 <= b -> n < 2 ^ N.of_nat (S k) -> n / b < 2 ^ N.of_nat k.
Proof.
  intros b n k B H. rewrite pow_S in H. apply N.div_lt_upper_bound; [lia|].
  eapply N.lt_le_trans; [exact H|]. apply N.mul_le_mono_r. exact B.
Qed.

Lemma base_loop_value : forall fuel b n acc, 2 <= b <= 16 -> n < 2 ^ N.of_nat fuel -> (0 < fuel)%nat ->
  fold_left (fun n c => n * b + digit_value c) (base_loop fuel b n acc) 0 = fold_left (fun n c => n * b + digit_value c) acc n.
Proof.
  induction fuel as [|fuel IH]; intros b n acc B H P; [lia|].
  cbn [base_loop]. destruct (N.ltb_spec n b) as [L|L].
  - cbn [fold_left]. rewrite N.mod_small by exact L. rewrite digit_value_digit by lia. f_equal.
  - assert (Q : 1 <= n / b) by (apply N.div_le_lower_bound; lia).
    pose proof (div_pow2 b n fuel (proj1 B) H) as H2.
    assert ((0 < fuel)%nat) by (destruct fuel; [cbn in H2; lia|lia]).
    rewrite IH by (try assumption). cbn [fold_left].
    pose proof (N.mod_lt n b ltac:(lia)) as M. rewrite digit_value_digit by lia.
    f_equal. pose proof (N.div_mod n b ltac:(lia)) as D. rewrite (N.mul_comm (n / b) b). symmetry. exact D.
Qed.

Lemma base_loop_digits : forall fuel b n acc, 2 <= b <= 16 -> Forall (is_digit b) acc -> Forall (is_digit b) (base_loop fuel b n acc).
Proof.
  induction fuel as [|fuel IH]; intros b n acc B H; [exact H|].
  cbn [base_loop].
  assert (F : Forall (is_digit b) (LogModel.digit (n mod b) :: acc)).
  { constructor; [|exact H]. apply is_digit_digit; [lia|]. apply N.mod_lt. lia. }
  destruct (n <? b); [exact F|]. apply IH; assumption.
Qed.

Lemma base_loop_length : forall fuel b n acc k, 2 <= b -> n < b ^ N.of_nat (S k) ->
  (List.length (base_loop fuel b n acc) <= S k + List.length acc)%nat.
Proof.
  induction fuel as [|fuel IH]; intros b n acc k B H; [cbn [base_loop]; lia|].
  cbn [base_loop]. destruct (N.ltb_spec n b) as [L|L]; [cbn [List.length]; lia|].
  destruct k as [|k].
  - change (N.of_nat 1) with 1 in H. rewrite N.pow_1_r in H. lia.
  - specialize (IH b (n / b) (LogModel.digit (n mod b) :: acc) k B (div_pow b n (S k) B H)). cbn [List.length] in IH. lia.
Qed.

Lemma base_loop_hd : forall fuel b n acc, 2 <= b -> n < 2 ^ N.of_nat fuel -> (0 < fuel)%nat ->
  hd 0 (base_loop fuel b n acc) = 48 -> n = 0.
Proof.
  induction fuel as [|fuel IH]; intros b n acc B H P E; [lia|].
  cbn [base_loop] in E. destruct (N.ltb_spec n b) as [L|L].
  - cbn [hd] in E. rewrite N.mod_small in E by exact L. apply digit_zero. exact E.
  - assert (Q : 1 <= n / b) by (apply N.div_le_lower_bound; lia).
    pose proof (div_pow2 b n fuel B H) as H2.
    assert ((0 < fuel)%nat) by (destruct fuel; [cbn in H2; lia|lia]).
    apply IH in E; lia.
Qed.

Lemma size_nat_gt : forall n, n < 2 ^ N.of_nat (S (N.size_nat n)).
Proof.
  destruct n as [|p]; [reflexivity|]. cbn [N.size_nat].
  induction p as [p IH|p IH|]; cbn [Pos.size_nat]; try reflexivity.
  - rewrite pow_S. lia.
  - rewrite pow_S. lia.
Qed.

Lemma to_base_denotes : forall b n, 2 <= b <= 16 -> denotes b (to_base b n) n.
Proof.
  intros b n B. unfold denotes, to_base.
  pose proof (size_nat_gt n) as S0.
  assert (V : number b (base_loop (S (N.size_nat n)) b n []) = n) by (apply base_loop_value; [exact B|exact S0|lia]).
  split.
  { cbn [base_loop]. clear. assert (forall f c m l, base_loop f b m (c :: l) <> []) as X.
    { induction f as [|f IH]; intros c m l; cbn [base_loop]; [discriminate|]. destruct (m <? b); [discriminate|apply IH]. }
    destruct (n <? b); [discriminate|apply X]. }
  split; [apply base_loop_digits; [exact B|constructor]|].
  split; [exact V|].
  intros E. apply base_loop_hd in E; [|lia|exact S0|lia]. subst n.
  cbn [base_loop N.size_nat]. replace (0 mod b) with 0 by (symmetry; apply N.mod_0_l; lia).
  destruct (N.ltb_spec 0 b); [reflexivity|lia].
Qed.

Lemma to_base_length : forall b n k, 2 <= b -> n < b ^ N.of_nat (S k) -> (List.length (to_base b n) <= S k)%nat.
Proof. intros. unfold to_base. pose proof (base_loop_length (S (N.size_nat n)) b n [] k H H0) as X. cbn [List.length] in X. lia. Qed.

(** A number is below the power of the base that its digits give. *)
Lemma number_bound : forall b t a, Forall (is_digit b) t ->
  fold_left (fun n c => n * b + digit_value c) t a < (a + 1) * b ^ N.of_nat (List.length t).
Proof.
  induction t as [|c t IH]; intros a F; [cbn; lia|].
  inversion F as [|? ? C F1]; subst. cbn [fold_left List.length]. specialize (IH (a * b + digit_value c) F1).
  destruct C as [_ C]. rewrite pow_S.
  eapply N.lt_le_trans; [exact IH|]. rewrite N.mul_assoc. apply N.mul_le_mono_r.
  clear - C. nia.
Qed.

Lemma to_base_long : forall b n k, 2 <= b <= 16 -> b ^ N.of_nat k <= n -> (k < List.length (to_base b n))%nat.
Proof.
  intros b n k B H. destruct (to_base_denotes b n B) as (_ & F & V & _).
  pose proof (number_bound b (to_base b n) 0 F) as L. fold (number b (to_base b n)) in L. rewrite V in L.
  rewrite N.mul_1_l in L.
  destruct (Nat.lt_ge_cases k (List.length (to_base b n))) as [|G]; [assumption|exfalso].
  assert (b ^ N.of_nat (List.length (to_base b n)) <= b ^ N.of_nat k) by (apply N.pow_le_mono_r; lia).
  lia.
Qed.

(** ** Texts through the buffer *)

Lemma via_buffer_short : forall t, (List.length t <= 254)%nat -> via_buffer t = Some t.
Proof.
  intros t L. unfold via_buffer. destruct (Nat.leb_spec (List.length t) 256); [|lia].
  rewrite (firstn_all2 (n := 254) t) by exact L. rewrite firstn_app, Nat.sub_diag, firstn_all. cbn [firstn]. now rewrite app_nil_r.
Qed.

Lemma decimal_length : forall z k, (Z.abs z < 10 ^ Z.of_nat (S k))%Z -> (List.length (decimal z) <= S (S k))%nat.
Proof.
  intros z k H. unfold decimal.
  assert (P : Z.of_N (10 ^ N.of_nat (S k)) = (10 ^ Z.of_nat (S k))%Z) by (rewrite N2Z.inj_pow, nat_N_Z; reflexivity).
  destruct (Z.ltb_spec z 0).
  - pose proof (to_base_length 10 (Z.to_N (- z)) k ltac:(lia) ltac:(lia)). cbn [List.length]. lia.
  - pose proof (to_base_length 10 (Z.to_N z) k ltac:(lia) ltac:(lia)). lia.
Qed.

Lemma real_text_length : forall m, (Z.abs m < 10 ^ 250)%Z -> (List.length (real_text m) <= 254)%nat.
Proof.
  intros m H. unfold real_text. cbv zeta. rewrite !app_length. cbn [List.length]. rewrite app_length, repeat_length.
  pose proof (to_base_length 10 (Z.to_N (Z.abs m) mod 1000000) 5 ltac:(clear; lia)) as L1.
  change (10 ^ N.of_nat 6) with 1000000 in L1. specialize (L1 (N.mod_lt _ 1000000 ltac:(clear; lia))).
  assert (B : Z.to_N (Z.abs m) / 1000000 < 10 ^ N.of_nat 244).
  { apply N.div_lt_upper_bound; [clear; lia|]. change (1000000 * 10 ^ N.of_nat 244) with (Z.to_N (10 ^ 250)). apply Z2N.inj_lt; [apply Z.abs_nonneg| |exact H]. apply Z.pow_nonneg. clear; lia. }
  pose proof (to_base_length 10 (Z.to_N (Z.abs m) / 1000000) 243 ltac:(clear; lia) B) as L2.
  assert (L3 : (List.length (if (m <? 0)%Z then [45]%N else []) <= 1)%nat) by (destruct (m <? 0)%Z; cbn; lia).
  clear - L1 L2 L3. unfold HttpModel.bytes in *. lia.
Qed.

Lemma real_text_long : forall m k, (10 ^ Z.of_nat k * 1000000 <= Z.abs m)%Z -> (k + 8 <= List.length (real_text m))%nat.
Proof.
  intros m k H. unfold real_text. cbv zeta. rewrite !app_length. cbn [List.length]. rewrite app_length, repeat_length.
  assert (B : 10 ^ N.of_nat k <= Z.to_N (Z.abs m) / 1000000).
  { apply N.div_le_lower_bound; [lia|].
    assert (P : Z.of_N (10 ^ N.of_nat k) = (10 ^ Z.of_nat k)%Z) by (rewrite N2Z.inj_pow, nat_N_Z; reflexivity). lia. }
  pose proof (to_base_long 10 _ k ltac:(lia) B) as L2. clear - L2. unfold HttpModel.bytes in *. lia.
Qed.

Lemma pow10_2 : forall n k, n < 2 ^ N.of_nat k -> n < 10 ^ N.of_nat k.
Proof. intros n k H. eapply N.lt_le_trans; [exact H|]. apply N.pow_le_mono_l. lia. Qed.
Lemma pow16_2 : forall n k, n < 2 ^ N.of_nat k -> n < 16 ^ N.of_nat k.
Proof. intros n k H. eapply N.lt_le_trans; [exact H|]. apply N.pow_le_mono_l. lia. Qed.

Lemma decimal_short : forall z, (- 2 ^ 63 <= z < 2 ^ 63)%Z -> via_buffer (decimal z) = Some (decimal z).
Proof.
  intros z H. apply via_buffer_short. pose proof (decimal_length z 18) as L.
  change (10 ^ Z.of_nat 19)%Z with 10000000000000000000%Z in L. specialize (L ltac:(lia)). lia.
Qed.

Lemma to_base_short : forall b n, b = 10 \/ b = 16 -> n < 2 ^ 64 -> via_buffer (to_base b n) = Some (to_base b n).
Proof.
  intros b n B H. apply via_buffer_short.
  assert (L : (List.length (to_base b n) <= 64)%nat).
  { change (2 ^ 64) with (2 ^ N.of_nat 64) in H. destruct B; subst b; (apply to_base_length; [clear; lia|]); [apply (pow10_2 n 64 H)|apply (pow16_2 n 64 H)]. }
  lia.
Qed.

Lemma s64_id : forall z, (- 2 ^ 63 <= z < 2 ^ 63)%Z -> s64 z = z.
Proof.
  intros z H. unfold s64. cbv zeta. change (2 ^ 64)%Z with 18446744073709551616%Z. change (2 ^ 63)%Z with 9223372036854775808%Z in *.
  destruct (Z.ltb_spec (z mod 18446744073709551616) 9223372036854775808); lia.
Qed.
Lemma s32_id : forall z, (- 2 ^ 31 <= z < 2 ^ 31)%Z -> s32 z = z.
Proof.
  intros z H. unfold s32. cbv zeta. change (2 ^ 32)%Z with 4294967296%Z. change (2 ^ 31)%Z with 2147483648%Z in *.
  destruct (Z.ltb_spec (z mod 4294967296) 2147483648); lia.
Qed.
Lemma u64_id : forall n, n < 2 ^ 64 -> u64 (Z.of_N n) = n.
Proof. intros n H. unfold u64. rewrite Z.mod_small; lia. Qed.
Lemma u32_id : forall n, n < 2 ^ 32 -> u32 (Z.of_N n) = n.
Proof. intros n H. unfold u32. rewrite Z.mod_small; lia. Qed.

(** ** The format *)

Lemma body_lit : forall t lit f args, ~ In 37 t -> body lit (t ++ f) args = body (lit ++ t) f args.
Proof.
  induction t as [|c t IH]; intros lit f args H; [now rewrite app_nil_r|].
  cbn [app body]. destruct (N.eqb_spec c 37) as [->|]; [exfalso; apply H; now left|].
  rewrite IH by (intros X; apply H; now right). rewrite <- app_assoc. reflexivity.
Qed.

Lemma item_directive : forall i, item_ok i -> (exists t, i = Lit t) \/
  exists d conv a, item_fmt i = [37; d] /\ item_args i = [a] /\ directive d = Some conv /\ conv a = Some (item_text i).
Proof.
  assert (I31 : forall z, (- 2 ^ 31 <= z < 2 ^ 31)%Z -> (- 2 ^ 63 <= z < 2 ^ 63)%Z) by (intros; lia).
  assert (I32 : forall n, n < 2 ^ 32 -> n < 2 ^ 64) by (intros; lia).
  intros i H. destruct i; cbn [item_ok] in H; [left; eexists; reflexivity| | | | | | |destruct small|destruct small| |]; right;
    do 3 eexists; (split; [reflexivity|]); (split; [reflexivity|]); (split; [reflexivity|]); cbn [item_text]; cbv beta iota;
    try reflexivity.
  - rewrite u32_id by (clear - H; lia). rewrite N.mod_small by exact H. reflexivity.
  - rewrite s32_id by exact H. apply decimal_short. auto.
  - rewrite u32_id by exact H. apply to_base_short; auto.
  - rewrite u32_id by exact H. apply to_base_short; auto.
  - rewrite s64_id by exact H. apply decimal_short. auto.
  - rewrite s64_id by exact H. apply decimal_short. auto.
  - rewrite u64_id by exact H. apply to_base_short; auto.
  - rewrite u64_id by exact H. apply to_base_short; auto.
  - rewrite u64_id by exact H. apply to_base_short; auto.
  - apply via_buffer_short, real_text_length, H.
Qed.

Definition plain (p : piece) : Prop := fst p = snd p.

Lemma body_items : forall items, Forall item_ok items -> forall lit rest more, exists ps lit',
  body lit (flat_map item_fmt items ++ rest) (flat_map item_args items ++ more) = (r <- body lit' rest more ;; Some (ps ++ r)) /\
  concat (map fst ps) ++ lit' = lit ++ flat_map item_text items /\ Forall plain ps.
Proof.
  induction items as [|i items IH]; intros F lit rest more.
  - exists [], lit. cbn [flat_map app map concat]. split; [destruct (body lit rest more); reflexivity|]. split; [now rewrite app_nil_r|constructor].
  - inversion F as [|? ? OK F1]; subst. destruct (item_directive i OK) as [[t ->]|(d & conv & a & E1 & E2 & E3 & E4)].
    + cbn [flat_map item_fmt item_args item_text app]. rewrite <- app_assoc, (body_lit _ _ _ _ OK).
      destruct (IH F1 (lit ++ t) rest more) as (ps & lit' & E & C & Q). exists ps, lit'. split; [exact E|]. split; [|exact Q].
      rewrite C, <- app_assoc. reflexivity.
    + cbn [flat_map]. rewrite E1, E2. cbn [app]. cbn [body]. rewrite E3, E4. change (37 =? 37) with true. cbv iota. cbn [obind].
      destruct (IH F1 [] rest more) as (ps & lit' & E & C & Q). rewrite E.
      exists (same lit :: same (item_text i) :: ps), lit'. split.
      { destruct (body lit' rest more); reflexivity. }
      split; [|repeat constructor; assumption].
      cbn [map concat fst same]. rewrite <- !app_assoc, C. reflexivity.
Qed.

Lemma body_nil : forall lit args, exists ps, body lit [] args = Some ps /\ concat (map fst ps) = lit /\ Forall plain ps.
Proof.
  intros lit args. cbn [body]. eexists. split; [reflexivity|]. destruct lit as [|c l]; cbn [map concat fst same].
  - split; [reflexivity|constructor].
  - rewrite app_nil_r. split; [reflexivity|repeat constructor].
Qed.

Lemma body_wrong : forall lit d rest args, directive d = None ->
  body lit (37 :: d :: rest) args = Some [same lit; same log_err_fmt; same [10]].
Proof. intros lit d rest args H. cbn [body]. change (37 =? 37) with true. cbv iota. rewrite H. reflexivity. Qed.

(** ** One call *)

Lemma two_digits : forall z, (0 <= z < 100)%Z -> two z = digits2 z.
Proof.
  intros z H.
  assert (A : forallb (fun k => if list_eq_dec N.eq_dec (two (Z.of_nat k)) (digits2 (Z.of_nat k)) then true else false) (seq 0 100) = true) by (vm_compute; reflexivity).
  rewrite forallb_forall in A. specialize (A (Z.to_nat z)). rewrite Z2Nat.id in A by lia.
  destruct (list_eq_dec N.eq_dec (two z) (digits2 z)) as [E|]; [exact E|]. discriminate A. apply in_seq. lia.
Qed.

Lemma date_year : forall k, (fst (fst (fst (Nat.iter k next_day epoch))) <= 1970 + Z.of_nat k)%Z.
Proof.
  induction k as [|k IH]; [cbn; lia|]. rewrite Nat2Z.inj_succ.
  change (Nat.iter (S k) next_day epoch) with (next_day (Nat.iter k next_day epoch)).
  destruct (Nat.iter k next_day epoch) as [[[y m] d] w]. cbn [fst] in IH. unfold next_day.
  destruct (d <? days_in_month y m)%Z; [cbn [fst]; lia|]. destruct (m <? 12)%Z; cbn [fst]; lia.
Qed.

Lemma moment_bounds : forall u n s, (0 <= n)%Z -> moment u n s ->
  (1 <= month u <= 12 /\ 1 <= day u <= 31 /\ 0 <= hour u < 24 /\ 0 <= minute u < 60 /\ 0 <= second u < 60 /\ 1970 <= year u <= 1970 + n)%Z.
Proof.
  intros u n s N0 (D & H1 & H2 & H3 & _). destruct (date_after_ok n N0) as (y & m & d & E & V & _).
  pose proof (date_year (Z.to_nat n)) as Y. rewrite Z2Nat.id in Y by exact N0. fold (date_after n) in Y. rewrite <- D in Y. cbn [date_of fst] in Y.
  rewrite E in D. unfold date_of in D. injection D as E1 E2 E3 _. unfold valid in V. pose proof (dim_range y m). subst y m d. lia.
Qed.

Lemma digits2_length : forall z, List.length (digits2 z) = 2%nat.
Proof. reflexivity. Qed.

Lemma date_text_ok : forall u n s, (0 <= n < 2 ^ 60)%Z -> moment u n s ->
  via_buffer (date_text u) = Some (digits2 (month u) ++ text "/" ++ digits2 (day u) ++ text "/" ++ decimal (year u) ++ text " " ++
       digits2 (hour u) ++ text ":" ++ digits2 (minute u) ++ text ":" ++ digits2 (second u) ++ text " UTC ").
Proof.
  intros u n s N0 M. destruct (moment_bounds u n s (proj1 N0) M) as (B1 & B2 & B3 & B4 & B5 & B6). unfold date_text.
  rewrite !two_digits by (clear - B1 B2 B3 B4 B5; lia).
  assert (L : (List.length (decimal (year u)) <= 20)%nat).
  { apply decimal_length. change (10 ^ Z.of_nat 19)%Z with 10000000000000000000%Z. clear - B6 N0. lia. }
  rewrite via_buffer_short; [reflexivity|].
  rewrite !app_length, !digits2_length. cbn [List.length]. change (List.length (text " UTC ")) with 5%nat.
  clear - L. unfold HttpModel.bytes in *. lia.
Qed.

Lemma int_short : forall z, (- 2 ^ 31 <= z < 2 ^ 31)%Z -> (List.length (decimal z) <= 20)%nat.
Proof. intros z H. apply decimal_length. change (10 ^ Z.of_nat 19)%Z with 10000000000000000000%Z. lia. Qed.

Lemma level_cases : forall level, level <= 4 -> level = 0 \/ level = 1 \/ level = 2 \/ level = 3 \/ level = 4.
Proof. intros. lia. Qed.

Lemma concat_plain : forall ps, Forall plain ps -> map fst ps = map snd ps.
Proof. induction 1 as [|p ps E _ IH]; [reflexivity|]. cbn [map]. rewrite IH. f_equal. exact E. Qed.

(** What stands before the message, and then what the format gives. *)
Lemma process_ok : forall set level src func line pid now fmt args b, level <= 4 -> set <= level -> (0 <= now < 2 ^ 63)%Z ->
  (- 2 ^ 31 <= line < 2 ^ 31)%Z -> (- 2 ^ 31 <= pid < 2 ^ 31)%Z -> body [] fmt args = Some b -> Forall plain b ->
  exists u ps, moment u (now / 86400) (now mod 86400) /\ process set level src func line pid now fmt args = Some ps /\
    concat (map fst ps) = prefix level (level_name level) u src func line pid ++ concat (map fst b) /\
    concat (map snd ps) = prefix level (coloured level) u src func line pid ++ concat (map fst b).
Proof.
  intros set level src func line pid now fmt args b L4 LS NOW LINE PID B P.
  destruct (time2utc_main now (proj1 NOW)) as (u & U & M). unfold process.
  destruct (N.ltb_spec level set) as [X|_]; [exfalso; clear - X LS; lia|]. rewrite U. cbn [obind].
  rewrite (date_text_ok u _ _) with (2 := M) by (clear - NOW; lia).
  pose proof (int_short _ LINE) as LL. pose proof (int_short _ PID) as LP.
  rewrite (via_buffer_short (decimal line)) by (clear - LL; unfold HttpModel.bytes in *; lia).
  rewrite (via_buffer_short (text "PID:" ++ decimal pid ++ [32])).
  2:{ rewrite !app_length. cbn [List.length]. change (List.length (text "PID:")) with 4%nat. clear - LP; unfold HttpModel.bytes in *; lia. }
  rewrite B. exists u. cbn [obind]. pose proof (eq_sym (concat_plain b P)) as Q.
  destruct (level_cases level L4) as [-> | [-> | [-> | [-> | ->]]]]; cbv [N.ltb N.leb N.compare Pos.compare Pos.compare_cont]; cbn [obind];
    (eexists; split; [exact M|]; split; [reflexivity|]); unfold piece, HttpModel.bytes in *; rewrite !map_app, !concat_app, ?Q;
    unfold level_piece; cbn [N.eqb Pos.eqb]; cbn [map concat fst snd same app]; unfold prefix, coloured, level_name; cbn [N.eqb Pos.eqb];
    cbv [N.leb N.compare Pos.compare Pos.compare_cont]; cbv iota;
    repeat (match goal with |- context [text ?s] => let v := eval vm_compute in (text s) in change (text s) with v end);
    repeat (progress (cbn [app]; rewrite ?app_nil_r, <- ?app_assoc)); split; reflexivity.
Qed.

(** ** Threads *)

Definition spin_held (fs : list frame) : bool := match fs with [] | [Spin _] => false | _ => true end.
Definition file_held (fs : list frame) : bool :=
  match fs with [Write _] | [SetLevel _] | [Spin _; Write _] => true | _ => false end.
Definition pending (fs : list frame) : bytes := match fs with [Write ws] => concat ws | _ => [] end.
Definition is_reload (c : call) : bool := match c with Reload _ _ => true | _ => false end.
Definition waiting (fs : list frame) : list call :=
  match fs with [Spin c] => [c] | [Flock c] => if is_reload c then [] else [c] | _ => [] end.
Inductive shape : list frame -> Prop :=
| sh_idle : shape []
| sh_spin : forall c, shape [Spin c]
| sh_flock : forall c, shape [Flock c]
| sh_write : forall ws, shape [Write ws]
| sh_level : forall lv, shape [SetLevel lv]
| sh_unspin : shape [Unspin]
| sh_stuck : shape [Spin complaint; Write []].

Record inv (st0 st : state) (es : list event) (out : list output) : Prop := mkI {
  i_shape : forall t th, nth_error (s_threads st) t = Some th -> shape (t_frames th);
  i_proc : forall t, option_map t_proc (nth_error (s_threads st) t) = option_map t_proc (nth_error (s_threads st0) t);
  i_whole : forall t th, nth_error (s_threads st) t = Some th -> nth_error (s_procs st) (t_proc th) <> None;
  i_whole' : forall p x, nth_error (s_procs st) p = Some x -> nth_error (s_files st) (p_fd x) <> None;
  i_pid : forall p, option_map p_pid (nth_error (s_procs st) p) = option_map p_pid (nth_error (s_procs st0) p);
  i_files : forall f, nth_error (s_files st) f = None <-> nth_error (s_files st0) f = None;
  i_spin : forall t th x, nth_error (s_threads st) t = Some th -> spin_held (t_frames th) = true ->
    nth_error (s_procs st) (t_proc th) = Some x -> p_owner x = Some t;
  i_spin' : forall p x t, nth_error (s_procs st) p = Some x -> p_owner x = Some t ->
    exists th, nth_error (s_threads st) t = Some th /\ t_proc th = p /\ spin_held (t_frames th) = true;
  i_file : forall t th x fl, nth_error (s_threads st) t = Some th -> file_held (t_frames th) = true ->
    nth_error (s_procs st) (t_proc th) = Some x -> nth_error (s_files st) (p_fd x) = Some fl -> f_owner fl = Some (t_proc th);
  i_file' : forall f fl p, nth_error (s_files st) f = Some fl -> f_owner fl = Some p ->
    exists t th x, nth_error (s_threads st) t = Some th /\ t_proc th = p /\ file_held (t_frames th) = true /\
      nth_error (s_procs st) p = Some x /\ p_fd x = f;
  i_text : forall f fl, nth_error (s_files st) f = Some fl -> exists rest,
    f_text fl ++ rest = file_text st0 f ++ concat (map (said st0 f) out) /\ (f_owner fl = None -> rest = []) /\
    (forall t th x, nth_error (s_threads st) t = Some th -> nth_error (s_procs st) (t_proc th) = Some x -> p_fd x = f ->
       file_held (t_frames th) = true -> rest = pending (t_frames th));
  i_order : forall t, flat_map (entered t) out ++ waiting (frames st t) = flat_map (made t) es
}.

Lemma inv_init : forall st, quiet st -> whole st -> inv st st [] [].
Proof.
  intros st (Q1 & Q2 & Q3) (W1 & W2). split.
  - intros t th T. apply nth_error_In in T. rewrite (Q1 th T). constructor.
  - reflexivity.
  - intros t th T. apply nth_error_In in T. apply nth_error_Some. exact (W1 _ T).
  - intros p x X. apply nth_error_In in X. apply nth_error_Some. exact (W2 _ X).
  - reflexivity.
  - reflexivity.
  - intros t th x T H. apply nth_error_In in T. rewrite (Q1 th T) in H. discriminate.
  - intros p x t P H. apply nth_error_In in P. rewrite (Q2 x P) in H. discriminate.
  - intros t th x fl T H. apply nth_error_In in T. rewrite (Q1 th T) in H. discriminate.
  - intros f fl p F H. apply nth_error_In in F. rewrite (Q3 fl F) in H. discriminate.
  - intros f fl F. exists []. split; [|split; [reflexivity|]].
    + unfold file_text. rewrite F. cbn [map concat]. rewrite !app_nil_r. reflexivity.
    + intros t th x T _ _ H. apply nth_error_In in T. rewrite (Q1 th T) in H. discriminate.
  - intros t. unfold frames. destruct (nth_error (s_threads st) t) as [th|] eqn:T; [|reflexivity].
    apply nth_error_In in T. rewrite (Q1 th T). reflexivity.
Qed.

Lemma upd_look : forall A (l : list A) i v a j, nth_error l i = Some a -> nth_error (upd l i v) j = if Nat.eqb i j then Some v else nth_error l j.
Proof.
  intros A l i v a j H. rewrite nth_error_upd. destruct (Nat.eqb i j); [|reflexivity].
  assert (i < List.length l)%nat by (apply nth_error_Some; rewrite H; discriminate). destruct (Nat.ltb_spec i (List.length l)); [reflexivity|lia].
Qed.

Lemma file_spin : forall fs, file_held fs = true -> spin_held fs = true.
Proof. intros [|[] [|[] [|]]]; cbn; intros; try reflexivity; discriminate. Qed.

(** One thread [t] steps; it touches its own frames, its process and the file of that. *)
Section one.
  Variables (st0 st : state) (es es' : list event) (out o : list output).
  Variables (t : nat) (th : thread) (x x' : proc) (fl fl' : file) (fs : list frame).
  Hypothesis I : inv st0 st es out.
  Hypothesis T : nth_error (s_threads st) t = Some th.
  Hypothesis P : nth_error (s_procs st) (t_proc th) = Some x.
  Hypothesis F : nth_error (s_files st) (p_fd x') = Some fl.
  Hypothesis PID : p_pid x' = p_pid x.
  Hypothesis SH : shape fs.
  Hypothesis SPIN :
    (spin_held fs = spin_held (t_frames th) /\ p_owner x' = p_owner x) \/
    (spin_held (t_frames th) = false /\ p_owner x = None /\ spin_held fs = true /\ p_owner x' = Some t) \/
    (spin_held (t_frames th) = true /\ spin_held fs = false /\ p_owner x' = None).
  Hypothesis FILE :
    (file_held fs = file_held (t_frames th) /\ f_owner fl' = f_owner fl /\ (p_fd x' = p_fd x \/ p_owner x = None) /\
       f_text fl' ++ (if file_held fs then pending fs else []) = f_text fl ++ (if file_held (t_frames th) then pending (t_frames th) else []) /\
       concat (map (said st0 (p_fd x')) o) = []) \/
    (file_held (t_frames th) = false /\ f_owner fl = None /\ file_held fs = true /\ f_owner fl' = Some (t_proc th) /\ p_fd x' = p_fd x /\
       f_text fl' = f_text fl /\ pending fs = concat (map (said st0 (p_fd x')) o)) \/
    (file_held (t_frames th) = true /\ file_held fs = false /\ f_owner fl' = None /\ p_fd x' = p_fd x /\
       f_text fl' = f_text fl /\ pending (t_frames th) = [] /\ concat (map (said st0 (p_fd x')) o) = []).
  Hypothesis OTHER : forall g, g <> p_fd x' -> concat (map (said st0 g) o) = [].
  Hypothesis ORDER : forall t', flat_map (entered t') (out ++ o) ++ waiting (if Nat.eqb t t' then fs else frames st t') = flat_map (made t') es'.

  Let st' := mkS (upd (s_files st) (p_fd x') fl') (upd (s_procs st) (t_proc th) x') (upd (s_threads st) t (mkT (t_proc th) fs)).

  Lemma one_T : forall j, nth_error (s_threads st') j = if Nat.eqb t j then Some (mkT (t_proc th) fs) else nth_error (s_threads st) j.
  Proof. intros j. apply (upd_look _ _ _ _ _ j T). Qed.
  Lemma one_P : forall j, nth_error (s_procs st') j = if Nat.eqb (t_proc th) j then Some x' else nth_error (s_procs st) j.
  Proof. intros j. apply (upd_look _ _ _ _ _ j P). Qed.
  Lemma one_F : forall j, nth_error (s_files st') j = if Nat.eqb (p_fd x') j then Some fl' else nth_error (s_files st) j.
  Proof. intros j. apply (upd_look _ _ _ _ _ j F). Qed.

  (** Another thread of the process does not have the lock that this one has or gets. *)
  Lemma one_alone : forall s sh, s <> t -> nth_error (s_threads st) s = Some sh -> t_proc sh = t_proc th -> spin_held (t_frames sh) = true ->
    p_owner x = Some s /\ spin_held (t_frames th) = false /\ p_owner x' = p_owner x /\ spin_held fs = false.
  Proof.
    intros s sh N S E H.
    assert (O : p_owner x = Some s) by (apply (i_spin _ _ _ _ I s sh x S H); rewrite E; exact P).
    assert (Z : spin_held (t_frames th) = false).
    { destruct (spin_held (t_frames th)) eqn:X; [|reflexivity]. pose proof (i_spin _ _ _ _ I t th x T X P). congruence. }
    destruct SPIN as [[A B]|[(A & B & C & D)|(A & B & C)]]; [|congruence|congruence]. repeat split; congruence.
  Qed.

  Lemma one_held : file_held (t_frames th) = true -> p_fd x' = p_fd x /\ f_owner fl = Some (t_proc th).
  Proof.
    intros H. assert (E : p_fd x' = p_fd x).
    { destruct FILE as [(A & B & [C|C] & _ & _)|[(A & B & C & D & E & _ & _)|(A & B & C & D & _ & _ & _)]]; try congruence.
      apply file_spin in H. rewrite (i_spin _ _ _ _ I t th x T H P) in C. discriminate. }
    split; [exact E|]. apply (i_file _ _ _ _ I t th x fl T H P). rewrite <- E. exact F.
  Qed.

  Lemma inv_one : inv st0 st' es' (out ++ o).
  Proof.
    split.
    - intros j jh. rewrite one_T. destruct (Nat.eqb_spec t j) as [<-|N]; [intros [= <-]; exact SH|apply (i_shape _ _ _ _ I)].
    - intros j. rewrite one_T. destruct (Nat.eqb_spec t j) as [<-|N]; [|apply (i_proc _ _ _ _ I)].
      rewrite <- (i_proc _ _ _ _ I t), T. reflexivity.
    - intros j jh. rewrite one_T. destruct (Nat.eqb_spec t j) as [<-|N].
      + intros [= <-]. cbn [t_proc]. rewrite one_P, Nat.eqb_refl. discriminate.
      + intros J. rewrite one_P. destruct (Nat.eqb (t_proc th) (t_proc jh)); [discriminate|apply (i_whole _ _ _ _ I j jh J)].
    - intros j y. rewrite one_P, one_F. destruct (Nat.eqb_spec (t_proc th) j) as [<-|N].
      + intros [= <-]. rewrite Nat.eqb_refl. discriminate.
      + intros J. destruct (Nat.eqb (p_fd x') (p_fd y)); [discriminate|apply (i_whole' _ _ _ _ I j y J)].
    - intros j. rewrite one_P. destruct (Nat.eqb_spec (t_proc th) j) as [<-|N]; [|apply (i_pid _ _ _ _ I)].
      rewrite <- (i_pid _ _ _ _ I (t_proc th)), P. cbn [option_map]. now rewrite PID.
    - intros j. rewrite one_F. destruct (Nat.eqb_spec (p_fd x') j) as [<-|N]; [|apply (i_files _ _ _ _ I)].
      rewrite <- (i_files _ _ _ _ I). rewrite F. split; discriminate.
    - intros j jh y. rewrite one_T. destruct (Nat.eqb_spec t j) as [<-|N].
      + intros [= <-]. cbn [t_frames t_proc]. intros H. rewrite one_P, Nat.eqb_refl. intros [= <-].
        destruct SPIN as [[A B]|[(A & B & C & D)|(A & B & C)]]; [|exact D|congruence].
        rewrite B. apply (i_spin _ _ _ _ I t th x T); [congruence|exact P].
      + intros J H. rewrite one_P. destruct (Nat.eqb_spec (t_proc th) (t_proc jh)) as [E|E].
        * intros [= <-]. destruct (one_alone j jh) as (A & B & C & D); auto. congruence.
        * apply (i_spin _ _ _ _ I j jh y J H).
    - intros p y j. rewrite one_P. destruct (Nat.eqb_spec (t_proc th) p) as [<-|N].
      + intros [= <-] O. rewrite one_T. destruct (Nat.eqb_spec t j) as [<-|M].
        * exists (mkT (t_proc th) fs). split; [reflexivity|]. split; [reflexivity|]. cbn [t_frames].
          destruct SPIN as [[A B]|[(A & B & C & D)|(A & B & C)]]; [|exact C|congruence].
          rewrite B in O. destruct (i_spin' _ _ _ _ I _ _ _ P O) as (th2 & T2 & _ & H). congruence.
        * destruct SPIN as [[A B]|[(A & B & C & D)|(A & B & C)]]; [|congruence|congruence].
          rewrite B in O. apply (i_spin' _ _ _ _ I _ _ _ P O).
      + intros J O. rewrite one_T. destruct (i_spin' _ _ _ _ I _ _ _ J O) as (jh & J1 & J2 & J3).
        destruct (Nat.eqb_spec t j) as [<-|M]; [exfalso; apply N; congruence|]. exists jh. auto.
    - intros j jh y gl. rewrite one_T. destruct (Nat.eqb_spec t j) as [<-|N].
      + intros [= <-]. cbn [t_frames t_proc]. intros H. rewrite one_P, Nat.eqb_refl. intros [= <-]. rewrite one_F, Nat.eqb_refl. intros [= <-].
        destruct FILE as [(A & B & C & _ & _)|[(A & B & C & D & E & _ & _)|(A & B & C & D & _ & _ & _)]]; [|exact D|congruence].
        rewrite B. apply one_held. congruence.
      + intros J H. rewrite one_P. destruct (Nat.eqb_spec (t_proc th) (t_proc jh)) as [E|E].
        * intros [= <-]. destruct (one_alone j jh) as (A & B & C & D); auto; [apply file_spin; exact H|].
          assert (FF : p_fd x' = p_fd x) by (destruct FILE as [(_ & _ & [X|X] & _ & _)|[(_ & _ & _ & _ & X & _ & _)|(_ & _ & _ & X & _ & _ & _)]]; congruence).
          rewrite one_F, Nat.eqb_refl. intros [= <-].
          assert (O : f_owner fl = Some (t_proc jh)) by (apply (i_file _ _ _ _ I j jh x fl J H); [rewrite <- E; exact P|rewrite <- FF; exact F]).
          destruct FILE as [(X1 & X2 & X3 & Y1 & Y2)|[(X1 & X2 & X3 & X4 & X5 & Y1 & Y2)|(X1 & X2 & X3 & X4 & Y1 & Y2 & Y3)]]; [congruence|congruence|].
          apply file_spin in X1. congruence.
        * intros Y. rewrite one_F. destruct (Nat.eqb_spec (p_fd x') (p_fd y)) as [E2|E2]; [|apply (i_file _ _ _ _ I j jh y gl J H Y)].
          intros [= <-]. assert (O : f_owner fl = Some (t_proc jh)) by (apply (i_file _ _ _ _ I j jh y fl J H Y); rewrite <- E2; exact F).
          destruct FILE as [(X1 & X2 & X3 & Y1 & Y2)|[(X1 & X2 & X3 & X4 & X5 & Y1 & Y2)|(X1 & X2 & X3 & X4 & Y1 & Y2 & Y3)]]; [congruence|congruence|].
          destruct (one_held X1) as [_ Z]. congruence.
    - intros g gl p. rewrite one_F. destruct (Nat.eqb_spec (p_fd x') g) as [<-|N].
      + intros [= <-] O. destruct FILE as [(X1 & X2 & X3 & Y1 & Y2)|[(X1 & X2 & X3 & X4 & X5 & Y1 & Y2)|(X1 & X2 & X3 & X4 & Y1 & Y2 & Y3)]]; [| |congruence].
        * rewrite X2 in O. destruct (i_file' _ _ _ _ I _ _ _ F O) as (j & jh & y & J1 & J2 & J3 & J4 & J5).
          destruct (Nat.eq_dec j t) as [->|M].
          -- assert (jh = th) by congruence. subst jh. exists t, (mkT (t_proc th) fs), x'. rewrite one_T, Nat.eqb_refl.
             split; [reflexivity|]. split; [exact J2|]. split; [cbn [t_frames]; congruence|]. split; [rewrite <- J2, one_P, Nat.eqb_refl; reflexivity|reflexivity].
          -- exists j, jh. destruct (Nat.eq_dec (t_proc th) p) as [E|E].
             ++ exists x'. rewrite one_T. destruct (Nat.eqb_spec t j); [congruence|].
                split; [exact J1|]. split; [exact J2|]. split; [exact J3|]. split; [rewrite <- E, one_P, Nat.eqb_refl; reflexivity|reflexivity].
             ++ exists y. rewrite one_T. destruct (Nat.eqb_spec t j); [congruence|]. rewrite one_P. destruct (Nat.eqb_spec (t_proc th) p); [congruence|]. auto.
        * exists t, (mkT (t_proc th) fs), x'. rewrite one_T, Nat.eqb_refl. assert (p = t_proc th) by congruence. subst p.
          split; [reflexivity|]. split; [reflexivity|]. split; [exact X3|]. split; [rewrite one_P, Nat.eqb_refl; reflexivity|reflexivity].
      + intros G O. destruct (i_file' _ _ _ _ I _ _ _ G O) as (j & jh & y & J1 & J2 & J3 & J4 & J5).
        destruct (Nat.eq_dec j t) as [->|M].
        * assert (jh = th) by congruence. subst jh. exfalso. apply N. destruct (one_held J3) as [E _]. rewrite E, <- J5. f_equal. congruence.
        * destruct (Nat.eq_dec (t_proc th) p) as [E|E].
          -- assert (y = x) by congruence. subst y. exfalso.
             destruct (one_alone j jh) as (A & B & C & D); auto; [congruence|apply file_spin; exact J3|].
             destruct FILE as [(_ & _ & [X|X] & _ & _)|[(_ & _ & _ & _ & X & _ & _)|(_ & _ & _ & X & _ & _ & _)]]; congruence.
          -- exists j, jh, y. rewrite one_T. destruct (Nat.eqb_spec t j); [congruence|]. rewrite one_P. destruct (Nat.eqb_spec (t_proc th) p); [congruence|]. auto.
    - pose proof one_held as OH. intros g gl. rewrite one_F. rewrite map_app, concat_app. destruct (Nat.eqb_spec (p_fd x') g) as [<-|N].
      + intros [= <-]. destruct (i_text _ _ _ _ I _ _ F) as (rest & R1 & R2 & R3).
        destruct FILE as [(X1 & X2 & X3 & Y1 & Y2)|[(X1 & X2 & X3 & X4 & X5 & Y1 & Y2)|(X1 & X2 & X3 & X4 & Y1 & Y2 & Y3)]].
        * (* the lock of the file is as before *)
          rewrite Y2, app_nil_r. destruct (file_held (t_frames th)) eqn:HO.
          -- destruct (OH eq_refl) as [E OW]. rewrite X1 in Y1.
             assert (rest = pending (t_frames th)) by (apply (R3 t th x T P); [congruence|exact HO]). subst rest.
             exists (pending fs). split; [rewrite Y1; exact R1|]. split; [intros Z; congruence|].
             intros j jh y. rewrite one_T. destruct (Nat.eqb_spec t j) as [<-|M]; [intros [= <-]; reflexivity|].
             intros J Y EY HJ. exfalso. rewrite one_P in Y. destruct (Nat.eqb_spec (t_proc th) (t_proc jh)) as [E2|E2].
             ++ destruct (one_alone j jh) as (A & B & C & D); auto; [apply file_spin; exact HJ|]. apply file_spin in HO. congruence.
             ++ assert (f_owner fl = Some (t_proc jh)) by (apply (i_file _ _ _ _ I j jh y fl J HJ Y); rewrite EY; exact F). congruence.
          -- rewrite X1, !app_nil_r in Y1. exists rest. split; [rewrite Y1; exact R1|]. split; [rewrite X2; exact R2|].
             intros j jh y. rewrite one_T. destruct (Nat.eqb_spec t j) as [<-|M]; [intros [= <-] _ _ HH; cbn [t_frames] in HH; congruence|].
             intros J Y EY HJ. rewrite one_P in Y. destruct (Nat.eqb_spec (t_proc th) (t_proc jh)) as [E2|E2].
             ++ injection Y as <-. destruct (one_alone j jh) as (A & B & C & D); auto; [apply file_spin; exact HJ|].
                destruct X3 as [X3|X3]; [|congruence]. apply (R3 j jh x J); [rewrite <- E2; exact P|congruence|exact HJ].
             ++ apply (R3 j jh y J Y EY HJ).
        * (* it is taken *)
          specialize (R2 X2). subst rest. rewrite app_nil_r in R1. exists (pending fs).
          split; [rewrite Y1, Y2, app_assoc, <- R1; reflexivity|]. split; [congruence|].
          intros j jh y. rewrite one_T. destruct (Nat.eqb_spec t j) as [<-|M]; [intros [= <-]; reflexivity|].
          intros J Y EY HJ. exfalso. rewrite one_P in Y. destruct (Nat.eqb_spec (t_proc th) (t_proc jh)) as [E2|E2].
          -- destruct (one_alone j jh) as (A & B & C & D); auto; [apply file_spin; exact HJ|]. apply file_spin in X3. congruence.
          -- assert (f_owner fl = Some (t_proc jh)) by (apply (i_file _ _ _ _ I j jh y fl J HJ Y); rewrite EY; exact F). congruence.
        * (* it is given back *)
          destruct (OH X1) as [E OW]. rewrite Y3, app_nil_r.
          assert (rest = pending (t_frames th)) by (apply (R3 t th x T P); [congruence|exact X1]). subst rest. rewrite Y2, app_nil_r in R1.
          exists []. split; [rewrite app_nil_r, Y1; exact R1|]. split; [reflexivity|].
          intros j jh y. rewrite one_T. destruct (Nat.eqb_spec t j) as [<-|M]; [intros [= <-] _ _ HH; cbn [t_frames] in HH; congruence|].
          intros J Y EY HJ. exfalso. rewrite one_P in Y. destruct (Nat.eqb_spec (t_proc th) (t_proc jh)) as [E2|E2].
          -- destruct (one_alone j jh) as (A & B & C & D); auto; [apply file_spin; exact HJ|]. apply file_spin in X1. congruence.
          -- assert (f_owner fl = Some (t_proc jh)) by (apply (i_file _ _ _ _ I j jh y fl J HJ Y); rewrite EY; exact F). congruence.
      + intros G. destruct (i_text _ _ _ _ I _ _ G) as (rest & R1 & R2 & R3). exists rest.
        rewrite OTHER by congruence. rewrite app_nil_r. split; [exact R1|]. split; [exact R2|].
        intros j jh y. rewrite one_T. destruct (Nat.eqb_spec t j) as [<-|M].
        * intros [= <-]. cbn [t_proc t_frames]. rewrite one_P, Nat.eqb_refl. intros [= <-]. congruence.
        * intros J. rewrite one_P. destruct (Nat.eqb_spec (t_proc th) (t_proc jh)); [intros [= <-]; congruence|]. apply (R3 j jh y J).
    - intros j. unfold frames. rewrite one_T. specialize (ORDER j). unfold frames in ORDER. destruct (Nat.eqb t j); exact ORDER.
  Qed.
End one.

Lemma upd_same : forall A (l : list A) i a, nth_error l i = Some a -> upd l i a = l.
Proof. induction l as [|b l IH]; intros [|i] a H; cbn in *; try discriminate; [injection H as ->; reflexivity|f_equal; auto]. Qed.

Lemma state_eta : forall st, mkS (s_files st) (s_procs st) (s_threads st) = st.
Proof. intros []. reflexivity. Qed.

Lemma text_writes : forall pid level now c ws, writes pid level now c = Some ws -> text_of pid level now c = concat ws.
Proof.
  intros pid level now [lv src func line fmt args|b|path lv] ws H; cbn [writes text_of] in *.
  - destruct (process level lv src func line pid now fmt args) as [ps|]; [|discriminate]. cbn [obind] in H.
    apply (f_equal (fun o => match o with Some v => v | None => [] end)) in H. rewrite <- H. apply flat_map_concat_map.
  - apply (f_equal (fun o => match o with Some v => v | None => [] end)) in H. rewrite <- H. cbn [concat]. now rewrite app_nil_r.
  - now apply (f_equal (fun o => match o with Some v => v | None => [] end)) in H; rewrite <- H.
Qed.

Lemma said_entered : forall st0 st es out t th x c ws level now f, inv st0 st es out -> nth_error (s_threads st) t = Some th ->
  nth_error (s_procs st) (t_proc th) = Some x -> writes (p_pid x) level now c = Some ws ->
  said st0 f (Entered t c f level now) = concat ws.
Proof.
  intros st0 st es out t th x c ws level now f I T P W. unfold said, process_of. rewrite Nat.eqb_refl.
  pose proof (i_proc _ _ _ _ I t) as E1. rewrite T in E1. cbn [option_map] in E1.
  destruct (nth_error (s_threads st0) t) as [th0|]; [|discriminate]. cbn [option_map] in E1. injection E1 as E1. rewrite <- E1.
  pose proof (i_pid _ _ _ _ I (t_proc th)) as E2. rewrite P in E2. cbn [option_map] in E2.
  destruct (nth_error (s_procs st0) (t_proc th)) as [x0|]; [|discriminate]. cbn [option_map] in E2. injection E2 as E2. rewrite <- E2. apply text_writes, W.
Qed.

Lemma order_quiet : forall st t th fs e es out o, nth_error (s_threads st) t = Some th ->
  (forall t', flat_map (entered t') out ++ waiting (frames st t') = flat_map (made t') es) ->
  (forall t', made t' e = if Nat.eqb t t' then made t e else []) ->
  (forall t', flat_map (entered t') o = if Nat.eqb t t' then flat_map (entered t) o else []) ->
  flat_map (entered t) o ++ waiting fs = waiting (t_frames th) ++ made t e ->
  forall t', flat_map (entered t') (out ++ o) ++ waiting (if Nat.eqb t t' then fs else frames st t') = flat_map (made t') (es ++ [e]).
Proof.
  intros st t th fs e es out o T H M E W t'. rewrite !flat_map_app. cbn [flat_map]. rewrite app_nil_r. specialize (H t'). specialize (M t'). specialize (E t').
  destruct (Nat.eqb_spec t t') as [<-|N].
  - rewrite <- app_assoc, W, app_assoc. f_equal. rewrite <- H. f_equal. unfold frames. rewrite T. reflexivity.
  - rewrite M, E, !app_nil_r. exact H.
Qed.

Lemma step_inv : forall st0 st es out e st' o, inv st0 st es out -> calm e -> step st e = Done st' o -> inv st0 st' (es ++ [e]) (out ++ o).
Proof.
  intros st0 st es out e st' o I C H. destruct e as [t c|t now cut|t now]; cbn [calm] in C; [| |destruct C].
  - (* a call begins *)
    cbn [step] in H. destruct (nth_error (s_threads st) t) as [th|] eqn:T; [|discriminate].
    destruct (t_frames th) as [|? ?] eqn:FR; [|discriminate]. injection H as <- <-.
    destruct (nth_error (s_procs st) (t_proc th)) as [x|] eqn:P; [|destruct (i_whole _ _ _ _ I t th T P)].
    destruct (nth_error (s_files st) (p_fd x)) as [fl|] eqn:F; [|destruct (i_whole' _ _ _ _ I _ x P F)].
    pose proof (inv_one st0 st es (es ++ [Call t c]) out [] t th x x fl fl [Spin c] I T P F) as K.
    rewrite (upd_same _ _ _ _ P), (upd_same _ _ _ _ F) in K. apply K; clear K; try reflexivity.
    + constructor.
    + left. rewrite FR. split; reflexivity.
    + left. rewrite FR. cbn [file_held map concat]. repeat split; auto.
    + eapply order_quiet; [exact T|apply (i_order _ _ _ _ I)|..].
      * intros t'. cbn [made]. rewrite Nat.eqb_refl. destruct (Nat.eqb t t'); reflexivity.
      * intros t'. destruct (Nat.eqb t t'); reflexivity.
      * rewrite FR. cbn [flat_map app waiting made]. rewrite Nat.eqb_refl. reflexivity.
  - subst cut. cbn [step] in H. destruct (nth_error (s_threads st) t) as [th|] eqn:T; [|discriminate].
    unfold go in H. destruct (nth_error (s_procs st) (t_proc th)) as [x|] eqn:P; [|discriminate].
    assert (M : forall t', made t' (Go t now None) = if Nat.eqb t t' then made t (Go t now None) else []) by (intros t'; destruct (Nat.eqb t t'); reflexivity).
    assert (E0 : forall t', flat_map (entered t') [] = if Nat.eqb t t' then flat_map (entered t) [] else []) by (intros t'; destruct (Nat.eqb t t'); reflexivity).
    pose proof (i_shape _ _ _ _ I t th T) as SH0. inversion SH0 as [FR|c FR|c FR|ws FR|lv FR|FR|FR]; rewrite <- FR in H.
    + discriminate.
    + (* the lock of the process is taken *)
      destruct (p_owner x) as [|] eqn:O; [discriminate|].
      set (fd := match c with Reload (Some f) _ => f | _ => p_fd x end) in *.
      destruct (nth_error (s_files st) fd) as [fl|] eqn:F; [|discriminate]. injection H as <- <-.
      set (o1 := match c with Reload path lv => [Opened t path lv] | _ => [] end).
      pose proof (inv_one st0 st es (es ++ [Go t now None]) out o1 t th x (mkP (p_pid x) fd (p_level x) (Some t)) fl fl [Flock c] I T P F) as K.
      cbn [p_fd] in K. rewrite (upd_same _ _ _ _ F) in K.
      assert (SL : forall g, concat (map (said st0 g) o1) = []) by (intros g; destruct c; reflexivity). apply K; clear K; try reflexivity.
      * constructor.
      * right. left. rewrite <- FR. cbn [spin_held p_owner]. auto.
      * left. rewrite <- FR. cbn [file_held]. repeat split; auto.
      * auto.
      * eapply order_quiet; [exact T|apply (i_order _ _ _ _ I)|exact M| |].
        -- intros t'. destruct c; cbn [o1 flat_map entered]; rewrite ?Nat.eqb_refl; destruct (Nat.eqb t t'); reflexivity.
        -- rewrite <- FR. destruct c; cbn [o1 flat_map app waiting made is_reload entered]; rewrite ?Nat.eqb_refl; reflexivity.
    + (* the lock of the file is taken *)
      destruct (nth_error (s_files st) (p_fd x)) as [fl|] eqn:F; [|discriminate].
      destruct (free_for fl (t_proc th)) eqn:FF; [|discriminate].
      assert (OW : f_owner fl = None).
      { unfold free_for in FF. destruct (f_owner fl) as [q|] eqn:O; [|reflexivity]. apply Nat.eqb_eq in FF. subst q. exfalso.
        destruct (i_file' _ _ _ _ I _ _ _ F O) as (s & sh & y & S1 & S2 & S3 & S4 & S5).
        assert (p_owner x = Some t) by (apply (i_spin _ _ _ _ I t th x T); [rewrite <- FR; reflexivity|exact P]).
        assert (p_owner y = Some s) by (apply (i_spin _ _ _ _ I s sh y S1); [apply file_spin; exact S3|congruence]).
        assert (s = t) by congruence. subst s. assert (sh = th) by congruence. subst sh. rewrite <- FR in S3. discriminate. }
      set (fl' := mkF (f_text fl) (Some (t_proc th))) in *.
      assert (G : forall fs o, st' = set_frames (set_file st (p_fd x) fl') t th fs -> shape fs -> file_held fs = true ->
        spin_held fs = true -> pending fs = concat (map (said st0 (p_fd x)) o) -> (forall g, g <> p_fd x -> concat (map (said st0 g) o) = []) ->
        (forall t', flat_map (entered t') o = if Nat.eqb t t' then flat_map (entered t) o else []) ->
        flat_map (entered t) o ++ waiting fs = waiting [Flock c] -> inv st0 st' (es ++ [Go t now None]) (out ++ o)).
      { intros fs o' E1 E2 E3 E4 E5 E6 E7 E8.
        pose proof (inv_one st0 st es (es ++ [Go t now None]) out o' t th x x fl fl' fs I T P F) as K.
        rewrite (upd_same _ _ _ _ P) in K. subst st'. apply K; clear K; try reflexivity; try assumption.
        - left. rewrite <- FR. split; [exact E4|reflexivity].
        - right. left. rewrite <- FR. cbn [f_owner f_text fl']. repeat split; assumption.
        - eapply order_quiet; [exact T|apply (i_order _ _ _ _ I)|exact M|exact E7|]. rewrite E8, <- FR. cbn [made]. now rewrite app_nil_r. }
      unfold enter in H. destruct (is_reload c) eqn:RC.
      * destruct c as [| |path lv]; try discriminate. injection H as E1 <-. symmetry in E1. apply (G _ [] E1); try reflexivity; [constructor|exact E0].
      * assert (W : exists ws, writes (p_pid x) (p_level x) now c = Some ws /\ st' = set_frames (set_file st (p_fd x) fl') t th [Write ws] /\
          o = [Entered t c (p_fd x) (p_level x) now]).
        { destruct c; try discriminate; (destruct (writes _ _ _ _) as [ws|] eqn:W in H; [|discriminate]); injection H as <- <-; exists ws; auto. }
        destruct W as (ws & W & E1 & ->). apply (G _ _ E1); try reflexivity.
        -- constructor.
        -- cbn [map]. rewrite (said_entered st0 st es out t th x c ws (p_level x) now (p_fd x) I T P W). cbn [concat pending]. now rewrite app_nil_r.
        -- intros g N. cbn [map concat said]. destruct (Nat.eqb_spec (p_fd x) g); [congruence|reflexivity].
        -- intros t'. cbn [flat_map entered]. rewrite Nat.eqb_refl. destruct (Nat.eqb t t'); reflexivity.
        -- cbn [flat_map entered waiting]. rewrite Nat.eqb_refl, RC. reflexivity.
    + (* something is written, or the file is unlocked *)
      destruct ws as [|w ws].
      * destruct (nth_error (s_files st) (p_fd x)) as [fl|] eqn:F; [|discriminate]. injection H as <- <-.
        assert (OW : f_owner fl = Some (t_proc th)) by (apply (i_file _ _ _ _ I t th x fl T); [rewrite <- FR; reflexivity|exact P|exact F]).
        pose proof (inv_one st0 st es (es ++ [Go t now None]) out [] t th x x fl (unlock fl (t_proc th)) [Unspin] I T P F) as K.
        rewrite (upd_same _ _ _ _ P) in K. apply K; clear K; try reflexivity.
        -- constructor.
        -- left. rewrite <- FR. split; reflexivity.
        -- right. right. rewrite <- FR. unfold unlock. rewrite OW, Nat.eqb_refl. repeat split.
        -- eapply order_quiet; [exact T|apply (i_order _ _ _ _ I)|exact M|exact E0|]. rewrite <- FR. reflexivity.
      * destruct (nth_error (s_files st) (p_fd x)) as [fl|] eqn:F; [|discriminate]. injection H as <- <-.
        pose proof (inv_one st0 st es (es ++ [Go t now None]) out [] t th x x fl (mkF (f_text fl ++ w) (f_owner fl)) [Write ws] I T P F) as K.
        rewrite (upd_same _ _ _ _ P) in K. apply K; clear K; try reflexivity.
        -- constructor.
        -- left. rewrite <- FR. split; reflexivity.
        -- left. rewrite <- FR. cbn [f_owner f_text file_held pending concat map]. repeat split; auto. now rewrite <- app_assoc.
        -- eapply order_quiet; [exact T|apply (i_order _ _ _ _ I)|exact M|exact E0|]. rewrite <- FR. reflexivity.
    + (* the level is set *)
      destruct (nth_error (s_files st) (p_fd x)) as [fl|] eqn:F; [|destruct (i_whole' _ _ _ _ I _ x P F)].
      assert (G : forall x' fs o, (forall g, concat (map (said st0 g) o) = []) -> (forall t', flat_map (entered t') o = []) -> st' = set_frames (set_proc st (t_proc th) x') t th fs -> shape fs -> file_held fs = true -> spin_held fs = true ->
        pending fs = [] -> p_pid x' = p_pid x -> p_fd x' = p_fd x -> p_owner x' = p_owner x -> waiting fs = [] -> inv st0 st' (es ++ [Go t now None]) (out ++ o)).
      { intros x' fs o' S1 S2 E1 E2 E3 E4 E5 E6 E7 E8 E9.
        assert (F' : nth_error (s_files st) (p_fd x') = Some fl) by (rewrite E7; exact F).
        pose proof (inv_one st0 st es (es ++ [Go t now None]) out o' t th x x' fl fl fs I T P F') as K.
        rewrite (upd_same _ _ _ _ F') in K. subst st'. apply K; clear K; try reflexivity; try assumption.
        - left. rewrite <- FR. split; [exact E4|exact E8].
        - left. rewrite <- FR. rewrite E3, E5. repeat split; auto.
        - auto.
        - eapply order_quiet; [exact T|apply (i_order _ _ _ _ I)|exact M|intros t'; rewrite !S2; destruct (Nat.eqb t t'); reflexivity|]. rewrite S2, <- FR, E9. reflexivity. }
      destruct lv as [| |l]; injection H as E1 <-; symmetry in E1.
      * apply (G x [Write []] []); try reflexivity; [rewrite E1; unfold set_proc, set_frames; cbn [s_files s_procs s_threads]; now rewrite (upd_same _ _ _ _ P)|constructor].
      * apply (G x [Spin complaint; Write []] []); try reflexivity; [rewrite E1; unfold set_proc, set_frames; cbn [s_files s_procs s_threads]; now rewrite (upd_same _ _ _ _ P)|constructor].
      * apply (G _ [Write []] _) with (3 := E1); try reflexivity. constructor.
    + (* the lock of the process is given back *)
      injection H as <- <-.
      destruct (nth_error (s_files st) (p_fd x)) as [fl|] eqn:F; [|destruct (i_whole' _ _ _ _ I _ x P F)].
      pose proof (inv_one st0 st es (es ++ [Go t now None]) out [Returned t] t th x (mkP (p_pid x) (p_fd x) (p_level x) None) fl fl [] I T P F) as K.
      cbn [p_fd] in K. rewrite (upd_same _ _ _ _ F) in K. apply K; clear K; try reflexivity.
      * constructor.
      * right. right. rewrite <- FR. repeat split.
      * left. rewrite <- FR. cbn [file_held map concat said]. repeat split; auto.
      * eapply order_quiet; [exact T|apply (i_order _ _ _ _ I)|exact M|intros t'; destruct (Nat.eqb t t'); reflexivity|]. rewrite <- FR. reflexivity.
    + (* it waits for the lock it has *)
      assert (p_owner x = Some t) as O by (apply (i_spin _ _ _ _ I t th x T); [rewrite <- FR; reflexivity|exact P]). rewrite O in H. discriminate.
Qed.

(** The settings of processes. *)

Definition due (fs : list frame) : list N :=
  match fs with [Flock (Reload _ (NewLevel l))] | [SetLevel (NewLevel l)] => [l] | _ => [] end.

Record inv2 (st0 st : state) (out : list output) : Prop := mkJ {
  j_set : forall p x, nth_error (s_procs st) p = Some x -> exists x0, nth_error (s_procs st0) p = Some x0 /\
    settings st0 p (p_fd x0, p_level x0) out = (p_fd x, p_level x);
  j_log : forall o1 t c f level now o2, out = o1 ++ Entered t c f level now :: o2 -> exists th x0, nth_error (s_threads st0) t = Some th /\
    nth_error (s_procs st0) (t_proc th) = Some x0 /\ settings st0 (t_proc th) (p_fd x0, p_level x0) o1 = (f, level);
  j_due : forall t, flat_map (configured t) out ++ due (frames st t) = flat_map (asked t) out
}.

Lemma inv2_init : forall st, quiet st -> inv2 st st [].
Proof.
  intros st (Q1 & _ & _). split.
  - intros p x P. exists x. split; [exact P|reflexivity].
  - intros o1 t c f level now o2 H. destruct o1; discriminate.
  - intros t. unfold frames. destruct (nth_error (s_threads st) t) as [th|] eqn:T; [|reflexivity].
    apply nth_error_In in T. rewrite (Q1 th T). reflexivity.
Qed.

Lemma static_thread : forall st0 st es out t th, inv st0 st es out -> nth_error (s_threads st) t = Some th ->
  exists th0, nth_error (s_threads st0) t = Some th0 /\ t_proc th0 = t_proc th.
Proof.
  intros st0 st es out t th I T. pose proof (i_proc _ _ _ _ I t) as E. rewrite T in E.
  destruct (nth_error (s_threads st0) t) as [th0|]; [|discriminate]. exists th0. split; [reflexivity|]. injection E as E. auto.
Qed.

Section two.
  Variables (st0 st : state) (es : list event) (out o : list output).
  Variables (t : nat) (th : thread) (x x' : proc) (fs : list frame).
  Hypothesis I : inv st0 st es out.
  Hypothesis J : inv2 st0 st out.
  Hypothesis T : nth_error (s_threads st) t = Some th.
  Hypothesis P : nth_error (s_procs st) (t_proc th) = Some x.
  Hypothesis O : o = [] \/ exists a, o = [a].
  Hypothesis SET : settings st0 (t_proc th) (p_fd x, p_level x) o = (p_fd x', p_level x').
  Hypothesis SET' : forall q s, q <> t_proc th -> settings st0 q s o = s.
  Hypothesis LOG : forall s c f level now, o = [Entered s c f level now] -> s = t /\ f = p_fd x /\ level = p_level x.
  Hypothesis DUE : flat_map (configured t) o ++ due fs = due (t_frames th) ++ flat_map (asked t) o.
  Hypothesis DUE' : forall s, s <> t -> flat_map (configured s) o = [] /\ flat_map (asked s) o = [].

  Lemma inv2_one : forall files, inv2 st0 (mkS files (upd (s_procs st) (t_proc th) x') (upd (s_threads st) t (mkT (t_proc th) fs))) (out ++ o).
  Proof.
    intros files. split.
    - intros p y. cbn [s_procs]. rewrite (upd_look _ _ _ _ _ p P). unfold settings. destruct (Nat.eqb_spec (t_proc th) p) as [<-|N].
      + intros [= <-]. destruct (j_set _ _ _ J _ _ P) as (x0 & X0 & E). exists x0. split; [exact X0|].
        rewrite fold_left_app. unfold settings in E. rewrite E. exact SET.
      + intros Y. destruct (j_set _ _ _ J _ _ Y) as (x0 & X0 & E). exists x0. split; [exact X0|].
        rewrite fold_left_app. unfold settings in E. rewrite E. apply (SET' p). congruence.
    - intros o1 s c f level now o2 E. destruct O as [Z|[a Z]].
      + rewrite Z, app_nil_r in E. apply (j_log _ _ _ J _ _ _ _ _ _ _ E).
      + rewrite Z in E. destruct (rev o2) as [|b r] eqn:R.
        * assert (o2 = []) by (rewrite <- (rev_involutive o2), R; reflexivity). subst o2.
          apply app_inj_tail in E. destruct E as [E1 E2]. subst o1 a. destruct (LOG _ _ _ _ _ Z) as (-> & -> & ->).
          destruct (static_thread _ _ _ _ _ _ I T) as (th0 & T0 & PE). destruct (j_set _ _ _ J _ _ P) as (x0 & X0 & S0).
          exists th0, x0. rewrite PE. auto.
        * assert (o2 = rev r ++ [b]) by (rewrite <- (rev_involutive o2), R; reflexivity). subst o2.
          change (o1 ++ Entered s c f level now :: rev r ++ [b]) with (o1 ++ (Entered s c f level now :: rev r) ++ [b]) in E. rewrite app_assoc in E.
          apply app_inj_tail in E. destruct E as [E1 _]. apply (j_log _ _ _ J _ _ _ _ _ _ _ E1).
    - intros s. rewrite !flat_map_app. unfold frames. cbn [s_threads]. rewrite (upd_look _ _ _ _ _ s T). pose proof (j_due _ _ _ J s) as D. unfold frames in D.
      destruct (Nat.eqb_spec t s) as [<-|N].
      + cbn [t_frames]. rewrite T in D. rewrite <- D, <- !app_assoc. f_equal. exact DUE.
      + destruct (DUE' s) as [-> ->]; [congruence|]. rewrite !app_nil_r. exact D.
  Qed.
End two.

Lemma mine : forall st0 st es out t th q, inv st0 st es out -> nth_error (s_threads st) t = Some th ->
  match nth_error (s_threads st0) t with Some th0 => Nat.eqb (t_proc th0) q | None => false end = Nat.eqb (t_proc th) q.
Proof. intros st0 st es out t th q I T. destruct (static_thread _ _ _ _ _ _ I T) as (th0 & -> & ->). reflexivity. Qed.

Lemma step_inv2 : forall st0 st es out e st' o, inv st0 st es out -> inv2 st0 st out -> calm e -> step st e = Done st' o -> inv2 st0 st' (out ++ o).
Proof.
  intros st0 st es out e st' o I J C H. destruct e as [t c|t now cut|t now]; cbn [calm] in C; [| |destruct C].
  - cbn [step] in H. destruct (nth_error (s_threads st) t) as [th|] eqn:T; [|discriminate].
    destruct (t_frames th) as [|? ?] eqn:FR; [|discriminate]. injection H as <- <-.
    destruct (nth_error (s_procs st) (t_proc th)) as [x|] eqn:P; [|destruct (i_whole _ _ _ _ I t th T P)].
    unfold set_frames. rewrite <- (upd_same _ _ _ _ P).
    apply (inv2_one st0 st es out [] t th x x [Spin c] I J T P); auto; try discriminate. rewrite FR. reflexivity.
  - cbn [step] in H. destruct (nth_error (s_threads st) t) as [th|] eqn:T; [|discriminate].
    pose proof (mine st0 st es out t th) as MINE.
    unfold go in H. destruct (nth_error (s_procs st) (t_proc th)) as [x|] eqn:P; [|discriminate].
    assert (K0 : forall files fs, due fs = due (t_frames th) ->
       inv2 st0 (mkS files (s_procs st) (upd (s_threads st) t (mkT (t_proc th) fs))) (out ++ [])).
    { intros files fs D. rewrite <- (upd_same _ _ _ _ P).
      apply (inv2_one st0 st es out [] t th x x fs I J T P); auto; try discriminate. cbn [flat_map app]. now rewrite app_nil_r. }
    pose proof (i_shape _ _ _ _ I t th T) as SH0. inversion SH0 as [FR|c FR|c FR|ws FR|lv FR|FR|FR]; rewrite <- FR in H.
    + discriminate.
    + destruct (p_owner x); [discriminate|]. set (fd := match c with Reload (Some f) _ => f | _ => p_fd x end) in *.
      destruct (nth_error (s_files st) fd) as [fl0|]; [|discriminate]. injection H as <- <-.
      apply (inv2_one st0 st es out _ t th x (mkP (p_pid x) fd (p_level x) (Some t)) [Flock c] I J T P).
      * destruct c; [left|left|right]; try reflexivity. eexists; reflexivity.
      * subst fd. destruct c as [| |[f|] lv]; try reflexivity. cbn [settings fold_left setting p_fd p_level]. rewrite (MINE _ I T), Nat.eqb_refl. reflexivity.
      * intros q s N. destruct c as [| |[f|] lv]; try reflexivity. cbn [settings fold_left setting]. rewrite (MINE _ I T).
        destruct (Nat.eqb_spec (t_proc th) q); [congruence|reflexivity].
      * intros s c0 f level now0 E. destruct c; discriminate.
      * rewrite <- FR. destruct c as [| |path [| |l]]; cbn [flat_map configured asked app due]; rewrite ?Nat.eqb_refl; reflexivity.
      * intros s N. destruct c as [| |path [| |l]]; cbn [flat_map configured asked app]; try (split; reflexivity).
        destruct (Nat.eqb_spec t s); [congruence|split; reflexivity].
    + destruct (nth_error (s_files st) (p_fd x)) as [fl|]; [|discriminate]. destruct (free_for fl (t_proc th)); [|discriminate].
      unfold enter in H. destruct (is_reload c) eqn:RC.
      * destruct c as [| |path lv]; try discriminate. injection H as <- <-. apply K0. rewrite <- FR. reflexivity.
      * assert (W : exists ws files, st' = mkS files (s_procs st) (upd (s_threads st) t (mkT (t_proc th) [Write ws])) /\
          o = [Entered t c (p_fd x) (p_level x) now]).
        { destruct c; try discriminate; (destruct (writes _ _ _ _) as [ws|] in H; [|discriminate]); injection H as <- <-; do 2 eexists; split; reflexivity. }
        destruct W as (ws & files & -> & ->). rewrite <- (upd_same _ _ _ _ P).
        apply (inv2_one st0 st es out _ t th x x [Write ws] I J T P); try reflexivity.
        -- right. eexists. reflexivity.
        -- intros s c0 f level now0 [= -> -> -> -> ->]. auto.
        -- rewrite <- FR. destruct c; try discriminate; reflexivity.
        -- intros s N. split; reflexivity.
    + destruct ws as [|w ws]; (destruct (nth_error (s_files st) (p_fd x)) as [fl|]; [|discriminate]); injection H as <- <-; apply K0; rewrite <- FR; reflexivity.
    + destruct lv as [| |l]; injection H as <- <-.
      * apply K0. rewrite <- FR. reflexivity.
      * apply K0. rewrite <- FR. reflexivity.
      * apply (inv2_one st0 st es out _ t th x (mkP (p_pid x) (p_fd x) l (p_owner x)) [Write []] I J T P).
        -- right. eexists. reflexivity.
        -- cbn [settings fold_left setting p_fd p_level fst]. rewrite (MINE _ I T), Nat.eqb_refl. reflexivity.
        -- intros q s N. cbn [settings fold_left setting]. rewrite (MINE _ I T). destruct (Nat.eqb_spec (t_proc th) q); [congruence|reflexivity].
        -- discriminate.
        -- rewrite <- FR. cbn [flat_map configured asked app due]. rewrite Nat.eqb_refl. reflexivity.
        -- intros s N. cbn [flat_map configured asked app]. destruct (Nat.eqb_spec t s); [congruence|split; reflexivity].
    + injection H as <- <-. apply (inv2_one st0 st es out _ t th x (mkP (p_pid x) (p_fd x) (p_level x) None) [] I J T P); try reflexivity; try discriminate.
      * right. eexists. reflexivity.
      * rewrite <- FR. reflexivity.
      * intros s N. split; reflexivity.
    + destruct (p_owner x) eqn:O; [discriminate|].
      assert (p_owner x = Some t) by (apply (i_spin _ _ _ _ I t th x T); [rewrite <- FR; reflexivity|exact P]). congruence.
Qed.

Lemma run_inv : forall es2 st0 st es out st' out', inv st0 st es out -> inv2 st0 st out -> Forall calm es2 -> run st es2 = Done st' out' ->
  inv st0 st' (es ++ es2) (out ++ out') /\ inv2 st0 st' (out ++ out').
Proof.
  induction es2 as [|e es2 IH]; intros st0 st es out st' out' I J C H.
  - injection H as <- <-. rewrite !app_nil_r. auto.
  - inversion C as [|? ? C1 C2]; subst. cbn [run] in H. destruct (step st e) as [st1 o1| |] eqn:S; try discriminate.
    destruct (run st1 es2) as [st2 o2| |] eqn:R; try discriminate. injection H as <- <-.
    destruct (IH st0 st1 (es ++ [e]) (out ++ o1) st2 o2 (step_inv _ _ _ _ _ _ _ I C1 S) (step_inv2 _ _ _ _ _ _ _ I J C1 S) C2 R) as [A B].
    rewrite <- !app_assoc in A. rewrite <- app_assoc in B. auto.
Qed.

Lemma quiet_end : forall st0 st es out, inv st0 st es out -> (forall t, frames st t = []) -> quiet st.
Proof.
  intros st0 st es out I Q. split; [|split].
  - intros th H. apply In_nth_error in H. destruct H as [t H]. specialize (Q t). unfold frames in Q. rewrite H in Q. exact Q.
  - intros x H. apply In_nth_error in H. destruct H as [p H]. destruct (p_owner x) as [t|] eqn:O; [|reflexivity].
    destruct (i_spin' _ _ _ _ I p x t H O) as (th & T & _ & B). specialize (Q t). unfold frames in Q. rewrite T in Q. rewrite Q in B. discriminate.
  - intros fl H. apply In_nth_error in H. destruct H as [f H]. destruct (f_owner fl) as [p|] eqn:O; [|reflexivity].
    destruct (i_file' _ _ _ _ I f fl p H O) as (t & th & x & T & _ & B & _). specialize (Q t). unfold frames in Q. rewrite T in Q. rewrite Q in B. discriminate.
Qed.

Lemma order_ok : forall st0 es st out, quiet st0 -> whole st0 -> Forall calm es -> run st0 es = Done st out ->
  (forall f, (f < List.length (s_files st0))%nat -> exists rest, file_text st f ++ rest = file_text st0 f ++ concat (map (said st0 f) out)) /\
  (forall t, exists rest, flat_map (entered t) out ++ rest = flat_map (made t) es) /\
  ((forall t, frames st t = []) -> quiet st /\
     (forall f, (f < List.length (s_files st0))%nat -> file_text st f = file_text st0 f ++ concat (map (said st0 f) out)) /\
     (forall t, flat_map (entered t) out = flat_map (made t) es)).
Proof.
  intros st0 es st out Q W C R.
  destruct (run_inv es st0 st0 [] [] st out (inv_init st0 Q W) (inv2_init st0 Q) C R) as [I J]. cbn [app] in I, J.
  assert (X : forall f, (f < List.length (s_files st0))%nat -> exists fl, nth_error (s_files st) f = Some fl).
  { intros f L. destruct (nth_error (s_files st) f) as [fl|] eqn:F; [eauto|]. apply (i_files _ _ _ _ I) in F. apply nth_error_None in F. lia. }
  split; [|split].
  - intros f L. destruct (X f L) as [fl F]. destruct (i_text _ _ _ _ I f fl F) as (rest & E & _). exists rest. unfold file_text at 1. rewrite F. exact E.
  - intros t. eexists. apply (i_order _ _ _ _ I t).
  - intros N. pose proof (quiet_end _ _ _ _ I N) as QQ. split; [exact QQ|]. split.
    + intros f L. destruct (X f L) as [fl F]. destruct (i_text _ _ _ _ I f fl F) as (rest & E & Z & _).
      rewrite Z in E; [|destruct QQ as (_ & _ & Q3); apply Q3, (nth_error_In _ _ F)]. rewrite app_nil_r in E. unfold file_text at 1. rewrite F. exact E.
    + intros t. pose proof (i_order _ _ _ _ I t) as E. rewrite N in E. cbn [waiting] in E. rewrite app_nil_r in E. exact E.
Qed.

Lemma settings_ok : forall st0 es st out, quiet st0 -> whole st0 -> Forall calm es -> run st0 es = Done st out ->
  (forall o1 t c f level now o2, out = o1 ++ Entered t c f level now :: o2 -> exists th x0, nth_error (s_threads st0) t = Some th /\
     nth_error (s_procs st0) (t_proc th) = Some x0 /\ settings st0 (t_proc th) (p_fd x0, p_level x0) o1 = (f, level)) /\
  (forall t, exists rest, flat_map (configured t) out ++ rest = flat_map (asked t) out) /\
  (forall t, frames st t = [] -> flat_map (configured t) out = flat_map (asked t) out).
Proof.
  intros st0 es st out Q W C R.
  destruct (run_inv es st0 st0 [] [] st out (inv_init st0 Q W) (inv2_init st0 Q) C R) as [I J]. cbn [app] in I, J.
  split; [apply (j_log _ _ _ J)|]. split.
  - intros t. eexists. apply (j_due _ _ _ J t).
  - intros t E. pose proof (j_due _ _ _ J t) as D. rewrite E in D. cbn [due] in D. rewrite app_nil_r in D. exact D.
Qed.

(** ** Nothing undefined *)

Lemma body_items_some : forall items, Forall item_ok items -> exists b, body [] (flat_map item_fmt items) (flat_map item_args items) = Some b /\
  concat (map fst b) = flat_map item_text items /\ Forall plain b.
Proof.
  intros items F. destruct (body_items items F [] [] []) as (ps & lit & E & C & Q). rewrite !app_nil_r in E. cbn [app] in C.
  destruct (body_nil lit []) as (b & B1 & B2 & B3). rewrite B1 in E. cbn [obind] in E. exists (ps ++ b). split; [exact E|].
  split; [|apply Forall_app; auto].
  rewrite map_app, concat_app. unfold piece, HttpModel.bytes in *. rewrite B2. exact C.
Qed.

Lemma proper_writes : forall st c pid level now, proper st c -> (- 2 ^ 31 <= pid < 2 ^ 31)%Z -> (0 <= now < 2 ^ 63)%Z ->
  exists ws, writes pid level now c = Some ws.
Proof.
  intros st c pid level now PR PI NO. destruct c as [lv src func line fmt args|b|path lv]; cbn [writes]; eauto.
  destruct PR as (L & LI & items & F & -> & ->). destruct (N.lt_ge_cases lv level) as [G|G].
  - unfold process. destruct (N.ltb_spec lv level); [|lia]. cbn [obind]. eauto.
  - destruct (body_items_some items F) as (b & B1 & B2 & B3).
    destruct (process_ok level lv src func line pid now _ _ b L G NO LI PI B1 B3) as (u & ps & _ & -> & _). cbn [obind]. eauto.
Qed.

Lemma inv_len : forall st0 st es out f, inv st0 st es out -> (f < List.length (s_files st0))%nat -> nth_error (s_files st) f <> None.
Proof. intros st0 st es out f I L H. apply (i_files _ _ _ _ I) in H. apply nth_error_None in H. lia. Qed.

Lemma inv_pid : forall st0 st es out p x, inv st0 st es out -> pids st0 -> nth_error (s_procs st) p = Some x -> (- 2 ^ 31 <= p_pid x < 2 ^ 31)%Z.
Proof.
  intros st0 st es out p x I PI P. pose proof (i_pid _ _ _ _ I p) as E. rewrite P in E. cbn [option_map] in E.
  destruct (nth_error (s_procs st0) p) as [x0|] eqn:P0; [|discriminate]. cbn [option_map] in E. injection E as ->. apply PI, (nth_error_In _ _ P0).
Qed.

Lemma step_no_fault : forall st0 st es out e, inv st0 st es out -> pids st0 -> Forall (proper_event st0) es -> proper_event st0 e -> calm e -> step st e <> Fault.
Proof.
  intros st0 st es out e I PI PR PE C H. destruct e as [t c|t now cut|t now]; cbn [calm] in C; [| |destruct C].
  - cbn [step] in H. destruct (nth_error (s_threads st) t) as [th|]; [|discriminate]. destruct (t_frames th); discriminate.
  - cbn [step] in H. destruct (nth_error (s_threads st) t) as [th|] eqn:T; [|discriminate].
    assert (WAIT : forall c, In c (waiting (t_frames th)) -> proper st0 c).
    { intros c IN. assert (IN2 : In c (flat_map (made t) es)).
      { rewrite <- (i_order _ _ _ _ I t). apply in_or_app. right. unfold frames. rewrite T. exact IN. }
      apply in_flat_map in IN2. destruct IN2 as (e & E1 & E2). rewrite Forall_forall in PR. specialize (PR e E1).
      destruct e as [s c'| |]; cbn [made] in E2; try contradiction. destruct (Nat.eqb s t); [|contradiction]. destruct E2 as [<-|[]]. exact PR. }
    unfold go in H. destruct (nth_error (s_procs st) (t_proc th)) as [x|] eqn:P; [|destruct (i_whole _ _ _ _ I t th T P)].
    pose proof (i_whole' _ _ _ _ I _ x P) as WF.
    pose proof (i_shape _ _ _ _ I t th T) as SH0. inversion SH0 as [FR|c FR|c FR|ws FR|lv FR|FR|FR]; rewrite <- FR in H, WAIT; cbn [waiting] in WAIT.
    + discriminate.
    + destruct (p_owner x); [discriminate|]. specialize (WAIT c (or_introl eq_refl)).
      destruct (nth_error (s_files st) _) as [fl|] eqn:F in H; [discriminate|].
      destruct c as [| |[f|] lv]; try (exact (WF F)). exact (inv_len _ _ _ _ _ I WAIT F).
    + destruct (nth_error (s_files st) (p_fd x)) as [fl|] eqn:F; [|exact (WF eq_refl)]. destruct (free_for fl (t_proc th)); [|discriminate].
      unfold enter in H. destruct (is_reload c) eqn:RC; [destruct c; discriminate|]. specialize (WAIT c (or_introl eq_refl)).
      destruct (proper_writes st0 c (p_pid x) (p_level x) now WAIT (inv_pid _ _ _ _ _ _ I PI P) PE) as [ws W].
      destruct c; try discriminate; rewrite W in H; discriminate.
    + destruct ws; (destruct (nth_error (s_files st) (p_fd x)) as [fl|] eqn:F; [discriminate|exact (WF eq_refl)]).
    + destruct lv; discriminate.
    + discriminate.
    + assert (O : p_owner x = Some t) by (apply (i_spin _ _ _ _ I t th x T); [rewrite <- FR; reflexivity|exact P]). rewrite O in H. discriminate.
Qed.

Lemma run_no_fault : forall es2 st0 st es out, inv st0 st es out -> pids st0 -> Forall (proper_event st0) es -> Forall (proper_event st0) es2 -> Forall calm es2 -> run st es2 <> Fault.
Proof.
  induction es2 as [|e es2 IH]; intros st0 st es out I PI PR P2 C H; [discriminate|].
  inversion P2; inversion C; subst. cbn [run] in H. destruct (step st e) as [st1 o1| |] eqn:S; [|discriminate|exact (step_no_fault st0 st es out e I PI PR ltac:(assumption) ltac:(assumption) S)].
  destruct (run st1 es2) as [| |] eqn:R; try discriminate.
  apply (IH st0 st1 (es ++ [e]) (out ++ o1)); auto; [eapply step_inv; eauto|apply Forall_app; auto].
Qed.

Lemma no_fault_ok : forall st es, quiet st -> whole st -> pids st -> Forall (proper_event st) es -> Forall calm es -> run st es <> Fault.
Proof. intros st es Q W PI P C. apply (run_no_fault es st st [] [] (inv_init st Q W) PI); auto. Qed.

(** ** Progress *)

Definition good (fs : list frame) : Prop :=
  match fs with
  | [Spin (Reload _ BadLevel)] | [Flock (Reload _ BadLevel)] | [SetLevel BadLevel] | [Spin _; Write _] => False
  | _ => True
  end.
Definition all_good (st : state) : Prop := forall t, good (frames st t).

Lemma frames_set : forall st t th fs s, nth_error (s_threads st) t = Some th ->
  frames (set_frames st t th fs) s = if Nat.eqb t s then fs else frames st s.
Proof. intros st t th fs s T. unfold frames, set_frames. cbn [s_threads]. rewrite (upd_look _ _ _ _ _ s T). destruct (Nat.eqb t s); reflexivity. Qed.

Lemma good_set : forall st files procs t th fs, nth_error (s_threads st) t = Some th -> all_good st -> good fs ->
  all_good (set_frames (mkS files procs (s_threads st)) t th fs).
Proof.
  intros st files procs t th fs T G H s. rewrite frames_set by exact T. destruct (Nat.eqb t s); [exact H|]. apply (G s).
Qed.

Lemma step_good : forall st0 st es out e st' o, inv st0 st es out -> all_good st -> calm e -> levels_known e -> step st e = Done st' o -> all_good st'.
Proof.
  intros st0 st es out e st' o I G C K H. destruct e as [t c|t now cut|t now]; cbn [calm] in C; [| |destruct C].
  - cbn [step] in H. destruct (nth_error (s_threads st) t) as [th|] eqn:T; [|discriminate]. destruct (t_frames th); [|discriminate]. injection H as <- <-.
    rewrite <- (state_eta st). apply good_set; [exact T|exact G|]. cbn [levels_known] in K. destruct c as [| |path []]; exact K || exact Logic.I.
  - cbn [step] in H. destruct (nth_error (s_threads st) t) as [th|] eqn:T; [|discriminate].
    unfold go in H. destruct (nth_error (s_procs st) (t_proc th)) as [x|] eqn:P; [|discriminate].
    pose proof (G t) as GT. unfold frames in GT. rewrite T in GT.
    pose proof (i_shape _ _ _ _ I t th T) as SH0. inversion SH0 as [FR|c FR|c FR|ws FR|lv FR|FR|FR]; rewrite <- FR in H, GT.
    + discriminate.
    + destruct (p_owner x); [discriminate|]. destruct (nth_error (s_files st) _) in H; [|discriminate]. injection H as <- <-. apply good_set; [exact T|exact G|exact GT].
    + destruct (nth_error (s_files st) (p_fd x)) as [fl|]; [|discriminate]. destruct (free_for fl (t_proc th)); [|discriminate].
      unfold enter in H. destruct c as [| |path lv].
      * destruct (writes _ _ _ _) in H; [|discriminate]. injection H as <- <-. apply good_set; [exact T|exact G|exact Logic.I].
      * destruct (writes _ _ _ _) in H; [|discriminate]. injection H as <- <-. apply good_set; [exact T|exact G|exact Logic.I].
      * injection H as <- <-. apply good_set; [exact T|exact G|]. destruct lv; exact GT.
    + destruct ws; (destruct (nth_error (s_files st) (p_fd x)); [|discriminate]); injection H as <- <-; (apply good_set; [exact T|exact G|exact Logic.I]).
    + destruct lv; [| destruct GT |]; injection H as <- <-; [rewrite <- (state_eta st)|]; (apply good_set; [exact T|exact G|exact Logic.I]).
    + injection H as <- <-. apply good_set; [exact T|exact G|exact Logic.I].
    + destruct GT.
Qed.

Lemma run_good : forall es2 st0 st es out st' out', inv st0 st es out -> all_good st -> Forall calm es2 -> Forall levels_known es2 -> run st es2 = Done st' out' -> all_good st'.
Proof.
  induction es2 as [|e es2 IH]; intros st0 st es out st' out' I G C K H; [injection H as <- <-; exact G|].
  inversion C as [|? ? C1 C2]; inversion K as [|? ? K1 K2]; subst. cbn [run] in H. destruct (step st e) as [st1 o1| |] eqn:S; try discriminate.
  destruct (run st1 es2) as [st2 o2| |] eqn:R; try discriminate. injection H as <- <-.
  apply (IH st0 st1 (es ++ [e]) (out ++ o1) st2 o2); auto; [eapply step_inv; eauto|eapply step_good; eauto].
Qed.

Lemma enter_enabled : forall st t th x c fs now, enter st t th x c fs now <> Disabled.
Proof. intros. unfold enter. destruct c; try (destruct (writes _ _ _ _)); discriminate. Qed.

(** A thread that has both locks can go on, and so can one that has the lock of its process unless another process has the file. *)
Lemma file_goes : forall st0 st es out t th, inv st0 st es out -> all_good st -> nth_error (s_threads st) t = Some th -> file_held (t_frames th) = true ->
  forall now, step st (Go t now None) <> Disabled.
Proof.
  intros st0 st es out t th I G T H now. cbn [step]. rewrite T. unfold go.
  destruct (nth_error (s_procs st) (t_proc th)) as [x|] eqn:P; [|discriminate].
  pose proof (G t) as GT. unfold frames in GT. rewrite T in GT.
  pose proof (i_shape _ _ _ _ I t th T) as SH0. inversion SH0 as [FR|c FR|c FR|ws FR|lv FR|FR|FR]; rewrite <- FR in H, GT; try discriminate H.
  - destruct ws; destruct (nth_error (s_files st) (p_fd x)); discriminate.
  - destruct lv; discriminate.
  - destruct GT.
Qed.

Lemma spin_goes : forall st0 st es out t th, inv st0 st es out -> all_good st -> nth_error (s_threads st) t = Some th -> spin_held (t_frames th) = true ->
  exists s, forall now, step st (Go s now None) <> Disabled.
Proof.
  intros st0 st es out t th I G T H.
  destruct (file_held (t_frames th)) eqn:FH; [exists t; intros now; exact (file_goes _ _ _ _ _ _ I G T FH now)|].
  pose proof (i_shape _ _ _ _ I t th T) as SH0. inversion SH0 as [FR|c FR|c FR|ws FR|lv FR|FR|FR]; rewrite <- FR in H, FH; try discriminate.
  - destruct (nth_error (s_procs st) (t_proc th)) as [x|] eqn:P.
    2:{ exists t. intros now. cbn [step]. rewrite T. unfold go. rewrite P. discriminate. }
    destruct (nth_error (s_files st) (p_fd x)) as [fl|] eqn:F.
    2:{ exists t. intros now. cbn [step]. rewrite T. unfold go. rewrite P, <- FR, F. discriminate. }
    destruct (free_for fl (t_proc th)) eqn:FF.
    + exists t. intros now. cbn [step]. rewrite T. unfold go. rewrite P, <- FR, F, FF. apply enter_enabled.
    + unfold free_for in FF. destruct (f_owner fl) as [q|] eqn:O; [|discriminate].
      destruct (i_file' _ _ _ _ I _ _ _ F O) as (s & sh & y & S1 & _ & S3 & _). exists s. intros now. exact (file_goes _ _ _ _ _ _ I G S1 S3 now).
  - exists t. intros now. cbn [step]. rewrite T. unfold go. rewrite <- FR. destruct (nth_error (s_procs st) (t_proc th)); discriminate.
Qed.

Lemma any_goes : forall st0 st es out t, inv st0 st es out -> all_good st -> frames st t <> [] ->
  exists s, forall now, step st (Go s now None) <> Disabled.
Proof.
  intros st0 st es out t I G H. unfold frames in H. destruct (nth_error (s_threads st) t) as [th|] eqn:T; [|congruence].
  destruct (spin_held (t_frames th)) eqn:SH; [exact (spin_goes _ _ _ _ _ _ I G T SH)|].
  pose proof (i_shape _ _ _ _ I t th T) as SH0. inversion SH0 as [FR|c FR|c FR|ws FR|lv FR|FR|FR]; rewrite <- FR in SH; try discriminate; [congruence|].
  destruct (nth_error (s_procs st) (t_proc th)) as [x|] eqn:P.
  2:{ exists t. intros now. cbn [step]. rewrite T. unfold go. rewrite P. discriminate. }
  destruct (p_owner x) as [s|] eqn:O.
  - destruct (i_spin' _ _ _ _ I _ _ _ P O) as (sh & S1 & _ & S3). exact (spin_goes _ _ _ _ _ _ I G S1 S3).
  - exists t. intros now. cbn [step]. rewrite T. unfold go. rewrite P, <- FR, O. destruct (nth_error (s_files st) _); discriminate.
Qed.

Lemma progress_ok : forall st0 es st out, quiet st0 -> whole st0 -> Forall calm es -> Forall levels_known es -> run st0 es = Done st out ->
  (exists t, frames st t <> []) -> exists t, forall now, step st (Go t now None) <> Disabled.
Proof.
  intros st0 es st out Q W C K R [t B].
  destruct (run_inv es st0 st0 [] [] st out (inv_init st0 Q W) (inv2_init st0 Q) C R) as [I _].
  eapply any_goes; [exact I| |exact B]. eapply run_good; [exact (inv_init st0 Q W)| |exact C|exact K|exact R].
  intros s. unfold frames. destruct (nth_error (s_threads st0) s) as [th|] eqn:T; [|exact Logic.I].
  destruct Q as (Q1 & _ & _). rewrite (Q1 th (nth_error_In _ _ T)). exact Logic.I.
Qed.

(** ** Calls end *)

Definition cost (c : call) : nat := match c with Log _ _ _ _ fmt _ => 2 * List.length fmt + 12 | _ => 0 end%nat.
Definition work (fs : list frame) : nat :=
  match fs with
  | [] => 0
  | [Spin c] => cost c + 6
  | [Flock c] => cost c + 5
  | [Write ws] => List.length ws + 2
  | [SetLevel _] => 4
  | [Unspin] => 1
  | _ => 3
  end%nat.
Definition total (st : state) : nat := list_sum (map (fun th => work (t_frames th)) (s_threads st)).

Lemma body_length : forall n fmt, (List.length fmt <= n)%nat -> forall lit args b, body lit fmt args = Some b -> (List.length b <= 2 * List.length fmt + 3)%nat.
Proof.
  induction n as [|n IH]; intros fmt L lit args b H.
  - destruct fmt; [|cbn in L; lia]. cbn [body] in H. injection H as <-. destruct lit; cbn; lia.
  - destruct fmt as [|c fmt]; [cbn [body] in H; injection H as <-; destruct lit; cbn; lia|]. cbn [List.length] in L. cbn [body] in H.
    destruct (c =? 37).
    + destruct fmt as [|d fmt]; [injection H as <-; cbn; lia|]. destruct (directive d) as [conv|]; [|injection H as <-; cbn [List.length]; lia].
      destruct args as [|a args]; [discriminate|]. destruct (conv a) as [w|]; [|discriminate]. cbn [obind] in H.
      destruct (body [] fmt args) as [r|] eqn:B; [|discriminate]. cbn [obind] in H. injection H as <-.
      cbn [List.length] in *. specialize (IH fmt ltac:(lia) [] args r B). lia.
    + specialize (IH fmt ltac:(lia) _ args b H). cbn [List.length]. lia.
Qed.

Lemma writes_length : forall pid level now c ws, is_reload c = false -> writes pid level now c = Some ws -> (List.length ws <= cost c + 2)%nat.
Proof.
  intros pid level now c ws R H. destruct c as [lv src func line fmt args|b|]; try discriminate; cbn [writes] in H.
  - destruct (process level lv src func line pid now fmt args) as [ps|] eqn:P; [|discriminate]. cbn [obind] in H. injection H as <-.
    rewrite map_length. unfold process in P. destruct (lv <? level); [injection P as <-; cbn; lia|].
    destruct (time2utc now) as [u|]; [|discriminate]. cbn [obind] in P.
    destruct (if 0 <? lv then _ else _) as [d|] eqn:D in P; [|discriminate]. cbn [obind] in P.
    destruct (if 2 <=? lv then _ else _) as [pl|] eqn:PL in P; [|discriminate]. cbn [obind] in P.
    destruct (if 0 <? lv then _ else _) as [w|] eqn:W in P; [|discriminate]. cbn [obind] in P.
    destruct (body [] fmt args) as [b|] eqn:B; [|discriminate]. cbn [obind] in P. injection P as <-.
    pose proof (body_length _ fmt (le_n _) [] args b B) as LB.
    assert (LD : (List.length d <= 1)%nat) by (destruct (0 <? lv); [destruct (via_buffer _) in D; [|discriminate]|]; injection D as <-; cbn; lia).
    assert (LW : (List.length w <= 1)%nat) by (destruct (0 <? lv); [destruct (via_buffer _) in W; [|discriminate]|]; injection W as <-; cbn; lia).
    assert (LP : (List.length pl <= 6)%nat) by (destruct (2 <=? lv); [destruct (via_buffer _) in PL; [|discriminate]|]; injection PL as <-; cbn; lia).
    assert (LL : (List.length (level_piece lv) <= 1)%nat).
    { unfold level_piece. destruct (lv =? 1); [cbn; lia|]. destruct (lv =? 2); [cbn; lia|]. destruct (lv =? 3); [cbn; lia|]. destruct (lv =? 4); cbn; lia. }
    rewrite !app_length. cbn [cost]. unfold piece, HttpModel.bytes in *. lia.
  - injection H as <-. cbn. lia.
Qed.

Lemma sum_upd : forall l i (v a : thread), nth_error l i = Some a ->
  (list_sum (map (fun th => work (t_frames th)) (upd l i v)) + work (t_frames a) = list_sum (map (fun th => work (t_frames th)) l) + work (t_frames v))%nat.
Proof.
  induction l as [|b l IH]; intros [|i] v a H; cbn [nth_error upd map list_sum fold_right] in *; try discriminate.
  - injection H as ->. unfold list_sum. cbn [fold_right]. lia.
  - specialize (IH i v a H). unfold list_sum in *. cbn [fold_right]. lia.
Qed.

Lemma go_less : forall st0 st es out t now st' o, inv st0 st es out -> step st (Go t now None) = Done st' o -> (total st' < total st)%nat.
Proof.
  intros st0 st es out t now st' o I H. cbn [step] in H. destruct (nth_error (s_threads st) t) as [th|] eqn:T; [|discriminate].
  assert (K : forall fs files procs, (work fs < work (t_frames th))%nat -> (total (set_frames (mkS files procs (s_threads st)) t th fs) < total st)%nat).
  { intros fs files procs L. unfold total, set_frames. cbn [s_threads]. pose proof (sum_upd (s_threads st) t (mkT (t_proc th) fs) th T) as E. cbn [t_frames] in E. lia. }
  unfold go in H. destruct (nth_error (s_procs st) (t_proc th)) as [x|] eqn:P; [|discriminate].
  pose proof (i_shape _ _ _ _ I t th T) as SH0. inversion SH0 as [FR|c FR|c FR|ws FR|lv FR|FR|FR]; rewrite <- FR in H, K.
  - discriminate.
  - destruct (p_owner x); [discriminate|]. destruct (nth_error (s_files st) _) in H; [|discriminate]. injection H as <- <-. apply K. cbn [work]. lia.
  - destruct (nth_error (s_files st) (p_fd x)) as [fl|]; [|discriminate]. destruct (free_for fl (t_proc th)); [|discriminate].
    unfold enter in H. destruct (is_reload c) eqn:RC.
    + destruct c; try discriminate. injection H as <- <-. apply K. cbn [work]. lia.
    + assert (W : exists ws, writes (p_pid x) (p_level x) now c = Some ws /\ st' = set_frames (set_file st (p_fd x) (mkF (f_text fl) (Some (t_proc th)))) t th [Write ws]).
      { destruct c; try discriminate; (destruct (writes _ _ _ _) as [ws|] eqn:W in H; [|discriminate]); injection H as <- <-; exists ws; auto. }
      destruct W as (ws & W & ->). apply K. pose proof (writes_length _ _ _ _ _ RC W). cbn [work]. lia.
  - destruct ws; (destruct (nth_error (s_files st) (p_fd x)); [|discriminate]); injection H as <- <-; apply K; cbn [work List.length]; lia.
  - destruct lv; injection H as <- <-; [rewrite <- (state_eta st)|rewrite <- (state_eta st)|]; apply K; cbn [work List.length]; lia.
  - injection H as <- <-. apply K. cbn [work]. lia.
  - assert (O : p_owner x = Some t) by (apply (i_spin _ _ _ _ I t th x T); [rewrite <- FR; reflexivity|exact P]). rewrite O in H. discriminate.
Qed.

Lemma goes_calm : forall e, goes e -> calm e.
Proof. intros [| ? ? [|]|]; cbn; auto; contradiction. Qed.

Lemma run_total : forall es2 st0 st es out st' o, inv st0 st es out -> Forall goes es2 -> run st es2 = Done st' o -> (List.length es2 + total st' <= total st)%nat.
Proof.
  induction es2 as [|e es2 IH]; intros st0 st es out st' o I G H; [injection H as <- <-; cbn; lia|].
  inversion G as [|? ? G1 G2]; subst. cbn [run] in H. destruct (step st e) as [st1 o1| |] eqn:S; try discriminate.
  destruct (run st1 es2) as [st2 o2| |] eqn:R; try discriminate. injection H as <- <-.
  pose proof (IH st0 st1 (es ++ [e]) (out ++ o1) st2 o2 (step_inv _ _ _ _ _ _ _ I (goes_calm _ G1) S) G2 R) as L.
  destruct e as [| t now [|]|]; try contradiction. pose proof (go_less _ _ _ _ _ _ _ _ I S). cbn [List.length]. lia.
Qed.

Lemma run_app : forall es1 es2 st st1 o1, run st es1 = Done st1 o1 ->
  run st (es1 ++ es2) = match run st1 es2 with Done st2 o2 => Done st2 (o1 ++ o2) | r => r end.
Proof.
  induction es1 as [|e es1 IH]; intros es2 st st1 o1 H; cbn [app run] in *.
  - injection H as <- <-. destruct (run st es2); reflexivity.
  - destruct (step st e) as [st2 o2| |]; try discriminate. destruct (run st2 es1) as [st3 o3| |] eqn:R; try discriminate. injection H as <- <-.
    rewrite (IH es2 st2 st3 o3 R). destruct (run st3 es2); try reflexivity. now rewrite app_assoc.
Qed.

Lemma ends_ok : forall st0 es st out, quiet st0 -> whole st0 -> pids st0 -> Forall (proper_event st0) es -> Forall calm es -> Forall levels_known es ->
  run st0 es = Done st out -> exists n,
  (forall es2 st2 out2, Forall goes es2 -> run st es2 = Done st2 out2 -> (List.length es2 <= n)%nat) /\
  (forall es2 st2 out2, Forall goes es2 -> Forall (proper_event st0) es2 -> run st es2 = Done st2 out2 ->
     quiet st2 \/ exists t st3 out3, step st2 (Go t 0 None) = Done st3 out3).
Proof.
  intros st0 es st out Q W PI PE C K R.
  destruct (run_inv es st0 st0 [] [] st out (inv_init st0 Q W) (inv2_init st0 Q) C R) as [I J]. cbn [app] in I, J.
  exists (total st). split.
  - intros es2 st2 out2 G R2. pose proof (run_total es2 _ _ _ _ _ _ I G R2). lia.
  - intros es2 st2 out2 G P2 R2.
    assert (C2 : Forall calm es2) by (eapply Forall_impl; [exact goes_calm|exact G]).
    assert (R12 : run st0 (es ++ es2) = Done st2 (out ++ out2)) by (rewrite (run_app es es2 st0 st out R), R2; reflexivity).
    assert (C12 : Forall calm (es ++ es2)) by (apply Forall_app; auto).
    assert (K12 : Forall levels_known (es ++ es2)).
    { apply Forall_app. split; [exact K|]. eapply Forall_impl; [|exact G]. intros [| ? ? [|]|]; cbn; auto; contradiction. }
    destruct (run_inv es2 st0 st es out st2 out2 I J C2 R2) as [I2 _].
    destruct (list_eq_dec Nat.eq_dec (flat_map (fun th => match t_frames th with [] => [] | _ => [1%nat] end) (s_threads st2)) []) as [E|E].
    + left. apply (quiet_end _ _ _ _ I2). intros t. unfold frames. destruct (nth_error (s_threads st2) t) as [th|] eqn:T; [|reflexivity].
      apply nth_error_In in T. destruct (t_frames th) as [|f fs] eqn:F; [reflexivity|]. exfalso.
      assert (X : In 1%nat (flat_map (fun th => match t_frames th with [] => [] | _ => [1%nat] end) (s_threads st2))).
      { apply in_flat_map. exists th. split; [exact T|]. rewrite F. now left. }
      rewrite E in X. destruct X.
    + right. assert (B : exists t, frames st2 t <> []).
      { destruct (flat_map _ (s_threads st2)) as [|a l] eqn:FM; [congruence|].
        assert (X : In a (flat_map (fun th => match t_frames th with [] => [] | _ => [1%nat] end) (s_threads st2))) by (rewrite FM; now left).
        apply in_flat_map in X. destruct X as (th & T & A). apply In_nth_error in T. destruct T as [t T]. exists t. unfold frames. rewrite T.
        destruct (t_frames th); [destruct A|discriminate]. }
      destruct (progress_ok st0 (es ++ es2) st2 (out ++ out2) Q W C12 K12 R12 B) as [t S]. exists t. specialize (S 0%Z).
      assert (P12 : Forall (proper_event st0) (es ++ es2)) by (apply Forall_app; auto).
      destruct (step st2 (Go t 0 None)) as [st3 out3| |] eqn:X; [eauto|congruence|].
      exfalso. apply (step_no_fault st0 st2 (es ++ es2) (out ++ out2) (Go t 0 None) I2 PI P12); [cbn; lia|reflexivity|exact X].
Qed.

(** ** A wrong level in a configuration *)

Definition stuck (st : state) : Prop := exists th x, nth_error (s_threads st) 0 = Some th /\ t_frames th = [Spin complaint; Write []] /\ t_proc th = 0%nat /\
  nth_error (s_procs st) 0 = Some x /\ p_fd x = 0%nat.

Lemma stuck_step : forall st0 st es out e st' o, inv st0 st es out -> stuck st -> calm e -> step st e = Done st' o ->
  stuck st' /\ file_text st' 0 = file_text st 0.
Proof.
  intros st0 st es out e st' o I (th & x & T & FR & TP & P & PF) C H.
  assert (OW : p_owner x = Some 0%nat) by (apply (i_spin _ _ _ _ I 0%nat th x T); [rewrite FR; reflexivity|rewrite TP; exact P]).
  assert (KEEP : forall s sh files procs fs, nth_error (s_threads st) s = Some sh -> s <> 0%nat ->
    (exists x', nth_error procs 0%nat = Some x' /\ p_fd x' = 0%nat) -> (forall fl, nth_error (s_files st) 0 = Some fl -> exists fl', nth_error files 0%nat = Some fl' /\ f_text fl' = f_text fl) ->
    stuck (set_frames (mkS files procs (s_threads st)) s sh fs) /\ file_text (set_frames (mkS files procs (s_threads st)) s sh fs) 0 = file_text st 0).
  { intros s sh files procs fs S N (x' & X1 & X2) FL. split.
    - exists th, x'. unfold set_frames. cbn [s_threads s_procs]. rewrite (upd_look _ _ _ _ _ 0%nat S). destruct (Nat.eqb_spec s 0); [congruence|]. auto.
    - unfold file_text, set_frames. cbn [s_files]. destruct (nth_error (s_files st) 0) as [fl|] eqn:F.
      + destruct (FL fl eq_refl) as (fl' & -> & ->). reflexivity.
      + exfalso. apply (i_whole' _ _ _ _ I 0%nat x P). rewrite PF. exact F. }
  assert (FILES : forall fl, nth_error (s_files st) 0 = Some fl -> exists fl', nth_error (s_files st) 0%nat = Some fl' /\ f_text fl' = f_text fl) by eauto.
  assert (FO : forall fl, nth_error (s_files st) 0 = Some fl -> f_owner fl = Some 0%nat).
  { intros fl F. rewrite <- TP. apply (i_file _ _ _ _ I 0%nat th x fl T); [rewrite FR; reflexivity|rewrite TP; exact P|rewrite PF; exact F]. }
  destruct e as [t c|t now cut|t now]; cbn [calm] in C; [| |destruct C].
  - cbn [step] in H. destruct (nth_error (s_threads st) t) as [sh|] eqn:S; [|discriminate]. destruct (t_frames sh) eqn:SF; [|discriminate]. injection H as <- <-.
    rewrite <- (state_eta st). apply KEEP; [exact S|intros ->; congruence|eauto|exact FILES].
  - cbn [step] in H. destruct (nth_error (s_threads st) t) as [sh|] eqn:S; [|discriminate].
    unfold go in H. destruct (nth_error (s_procs st) (t_proc sh)) as [y|] eqn:Y; [|discriminate].
    assert (SPIN : spin_held (t_frames sh) = true -> t <> 0%nat -> t_proc sh <> 0%nat).
    { intros A B D. assert (p_owner y = Some t) by (apply (i_spin _ _ _ _ I t sh y S A Y)). rewrite D in Y. congruence. }
    assert (PROC : forall q y', q <> 0%nat -> exists x', nth_error (upd (s_procs st) q y') 0 = Some x' /\ p_fd x' = 0%nat).
    { intros q y' N. exists x. rewrite nth_error_upd_neq by exact N. auto. }
    pose proof (i_shape _ _ _ _ I t sh S) as SH0. inversion SH0 as [SF|c SF|c SF|ws SF|lv SF|SF|SF]; rewrite <- SF in H, SPIN.
    + discriminate.
    + assert (N : t <> 0%nat) by (intros ->; congruence). destruct (p_owner y) eqn:O; [discriminate|].
      assert (N2 : t_proc sh <> 0%nat) by (intros E; rewrite E in Y; congruence).
      destruct (nth_error (s_files st) _) in H; [|discriminate]. injection H as <- <-. apply KEEP; [exact S|exact N|apply PROC; exact N2|exact FILES].
    + assert (N : t <> 0%nat) by (intros ->; congruence). specialize (SPIN eq_refl N).
      destruct (nth_error (s_files st) (p_fd y)) as [fl|] eqn:F; [|discriminate]. destruct (free_for fl (t_proc sh)) eqn:FF; [|discriminate].
      assert (NF : p_fd y <> 0%nat).
      { intros E. rewrite E in F. unfold free_for in FF. rewrite (FO fl F) in FF. apply Nat.eqb_eq in FF. congruence. }
      assert (FL2 : forall fl' fl0, nth_error (s_files st) 0 = Some fl0 -> exists fl1, nth_error (upd (s_files st) (p_fd y) fl') 0 = Some fl1 /\ f_text fl1 = f_text fl0).
      { intros fl' fl0 F0. exists fl0. rewrite nth_error_upd_neq by exact NF. auto. }
      unfold enter in H. destruct c as [| |path lv]; [destruct (writes _ _ _ _) in H; [|discriminate]|destruct (writes _ _ _ _) in H; [|discriminate]|];
        injection H as <- <-; (apply KEEP; [exact S|exact N|eauto|apply FL2]).
    + assert (N : t <> 0%nat) by (intros ->; congruence). specialize (SPIN eq_refl N).
      destruct (nth_error (s_files st) (p_fd y)) as [fl|] eqn:F; [|destruct ws; discriminate].
      assert (NF : p_fd y <> 0%nat).
      { intros E. assert (X : f_owner fl = Some (t_proc sh)) by (apply (i_file _ _ _ _ I t sh y fl S); [rewrite <- SF; reflexivity|exact Y|exact F]).
        rewrite E in F. rewrite (FO fl F) in X. congruence. }
      assert (FL2 : forall fl' fl0, nth_error (s_files st) 0 = Some fl0 -> exists fl1, nth_error (upd (s_files st) (p_fd y) fl') 0 = Some fl1 /\ f_text fl1 = f_text fl0).
      { intros fl' fl0 F0. exists fl0. rewrite nth_error_upd_neq by exact NF. auto. }
      destruct ws; injection H as <- <-; (apply KEEP; [exact S|exact N|eauto|apply FL2]).
    + assert (N : t <> 0%nat) by (intros ->; congruence). specialize (SPIN eq_refl N).
      destruct lv; injection H as <- <-; [rewrite <- (state_eta st)|rewrite <- (state_eta st)|];
        (apply KEEP; [exact S|exact N|try (apply PROC; exact SPIN); eauto|exact FILES]).
    + assert (N : t <> 0%nat) by (intros ->; congruence). specialize (SPIN eq_refl N). injection H as <- <-.
      apply KEEP; [exact S|exact N|apply PROC; exact SPIN|exact FILES].
    + assert (O : p_owner y = Some t) by (apply (i_spin _ _ _ _ I t sh y S); [rewrite <- SF; reflexivity|exact Y]). rewrite O in H. discriminate.
Qed.

Lemma stuck_run : forall es2 st0 st es out st' o, inv st0 st es out -> stuck st -> Forall calm es2 -> run st es2 = Done st' o ->
  stuck st' /\ file_text st' 0 = file_text st 0.
Proof.
  induction es2 as [|e es2 IH]; intros st0 st es out st' o I ST C H; [injection H as <- <-; auto|].
  inversion C as [|? ? C1 C2]; subst. cbn [run] in H. destruct (step st e) as [st1 o1| |] eqn:S; try discriminate.
  destruct (run st1 es2) as [st2 o2| |] eqn:R; try discriminate. injection H as <- <-.
  destruct (stuck_step _ _ _ _ _ _ _ I ST C1 S) as [ST1 E1].
  destruct (IH st0 st1 _ _ st2 o2 (step_inv _ _ _ _ _ _ _ I C1 S) ST1 C2 R) as [ST2 E2]. split; [exact ST2|congruence].
Qed.

(** ** The path *)

Lemma last_slash_ok : forall n p i, last_slash n p = Some i -> (i < n)%nat /\ nth i p 0 = 47 /\ forall k, (i < k < n)%nat -> nth k p 0 <> 47.
Proof.
  induction n as [|n IH]; intros p i H; [discriminate|]. cbn [last_slash] in H. destruct (N.eqb_spec (nth n p 0) 47) as [E|E].
  - injection H as <-. split; [lia|]. split; [exact E|]. intros k K. lia.
  - destruct (IH p i H) as (A & B & C). split; [lia|]. split; [exact B|]. intros k K. destruct (Nat.eq_dec k n) as [->|]; [exact E|]. apply C. lia.
Qed.

Lemma last_slash_is : forall n p i, (i < n)%nat -> nth i p 0 = 47 -> (forall k, (i < k < n)%nat -> nth k p 0 <> 47) -> last_slash n p = Some i.
Proof.
  induction n as [|n IH]; intros p i L E H; [lia|]. cbn [last_slash]. destruct (N.eqb_spec (nth n p 0) 47) as [X|X].
  - destruct (Nat.eq_dec i n) as [->|]; [reflexivity|]. exfalso. apply (H n); [lia|exact X].
  - apply IH; [destruct (Nat.eq_dec i n) as [->|]; [congruence|lia]|exact E|intros k K; apply H; lia].
Qed.

Lemma path_split : forall dir name, ~ In 47 name -> last_slash (List.length (dir ++ 47 :: name)) (dir ++ 47 :: name) = Some (List.length dir).
Proof.
  intros dir name N. apply last_slash_is.
  - rewrite app_length. cbn [List.length]. lia.
  - rewrite app_nth2, Nat.sub_diag by lia. reflexivity.
  - intros k K E. apply N. rewrite app_nth2 in E by lia. destruct (k - List.length dir)%nat as [|j] eqn:J; [lia|]. cbn [nth] in E. rewrite <- E. apply nth_In.
    rewrite app_length in K. cbn [List.length] in K. lia.
Qed.

Lemma get_log_ok : forall root deflt cmd dir name,
  match cmd with None => deflt | Some s => if (hd 0 s =? 47) || (hd 0 s =? 46) then s else root ++ 47 :: s end = dir ++ 47 :: name ->
  ~ In 47 name -> (List.length dir < 512)%nat -> (List.length (dir ++ 47%N :: name) <= 1022)%nat ->
  get_log root deflt cmd = Some (dir, dir ++ 47 :: name, dir ++ 47 :: name).
Proof.
  intros root deflt cmd dir name E N D L. unfold get_log. cbv zeta.
  assert (K : forall t, t = dir ++ 47 :: name -> last_slash (List.length t) t = Some (List.length dir) /\ firstn (List.length dir) t = dir /\ firstn (List.length t) t = t /\ firstn 1022 t = t /\
     (List.length t <=? 1024)%nat = true /\ (List.length dir <? 512)%nat && (List.length t <? 1024)%nat = true /\ Nat.min (List.length t) 1023 = List.length t).
  { intros t ->. split; [apply path_split; exact N|]. split; [rewrite firstn_app, firstn_all, Nat.sub_diag; cbn [firstn]; now rewrite app_nil_r|].
    split; [apply firstn_all|]. split; [apply firstn_all2; exact L|]. split; [apply Nat.leb_le; lia|]. split; [apply andb_true_iff; split; apply Nat.ltb_lt; lia|lia]. }
  destruct cmd as [s|].
  - replace (nth 0 s 0) with (hd 0 s) by (destruct s; reflexivity). rewrite <- negb_orb. destruct ((hd 0 s =? 47) || (hd 0 s =? 46)); cbn [negb].
    + destruct (K s E) as (K1 & K2 & K3 & K4 & K5 & K6 & K7). rewrite K7, K1, K6, K2, K3, <- E. reflexivity.
    + destruct (K _ E) as (K1 & K2 & K3 & K4 & K5 & K6 & K7). rewrite K4, K5, K1, K6, K2, K3, <- E. reflexivity.
  - destruct (K _ E) as (K1 & K2 & K3 & K4 & K5 & K6 & K7). rewrite K4, K5, K1, K6, K2, K3, <- E. reflexivity.
Qed.
