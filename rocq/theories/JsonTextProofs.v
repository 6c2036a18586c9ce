Require Import List Arith NArith ZArith Lia Bool SpecFloat.
Require Import ZifyBool ZifyNat ZifyN.
Require Import Verif.Base Verif.EndianProofs Verif.JsonNumModel Verif.JsonNumProofs Verif.JsonModel Verif.JsonSpec.
Import ListNotations.
Open Scope N_scope.

(** ** Decimal numbers *)
Definition horner (a : N) (ds : list N) : N := fold_left (fun a c => 10 * a + (c - 48)) ds a.
Lemma horner_ge ds : forall a, a <= horner a ds.
Proof. induction ds as [|c t IH]; intros a; [cbn; lia|]. unfold horner in *. cbn [fold_left]. specialize (IH (10 * a + (c - 48))). lia. Qed.

Lemma is_digit_iff c : is_digit c = true <-> 48 <= c <= 57.
Proof. unfold is_digit. lia. Qed.

(** A byte that ends a number. *)
Definition ends (c : N) : Prop := In c [32; 9; 10; 13; 44; 58; 93; 125].
Definition ends_at (r : list N) : Prop := match r with [] => True | c :: _ => ends c end.
Lemma ends_not_digit c : ends c -> is_digit c = false.
Proof. unfold ends. cbn [In]. unfold is_digit. lia. Qed.

Lemma int_part_ok ds : forall a r, Forall (fun c => 48 <= c <= 57) ds -> (Z.of_N (horner a ds) <= 2 ^ 53)%Z -> ends_at r ->
  int_part (z2d (Z.of_N a)) (ds ++ r) = (z2d (Z.of_N (horner a ds)), r).
Proof.
  induction ds as [|c t IH]; intros a r Hd Hb Hr.
  - cbn [app horner fold_left]. destruct r as [|c r]; [reflexivity|]. cbn [int_part]. rewrite (ends_not_digit c Hr). reflexivity.
  - inversion Hd as [|? ? Hc Ht]; subst. cbn [app int_part]. rewrite (proj2 (is_digit_iff c) Hc).
    change (horner a (c :: t)) with (horner (10 * a + (c - 48)) t) in *. pose proof (horner_ge t (10 * a + (c - 48))) as Hge.
    rewrite dmul_ten by lia. unfold digit. rewrite dadd_nat by lia.
    replace (10 * Z.of_N a + (Z.of_N c - 48))%Z with (Z.of_N (10 * a + (c - 48))) by lia. apply IH; assumption.
Qed.

Lemma fraction_ends v r : ends_at r -> fraction v r = Ok (v, r).
Proof.
  destruct r as [|c r]; intros H; [reflexivity|]. cbn [ends_at] in H. unfold ends in H. cbn [In] in H.
  unfold fraction. replace (c =? 46) with false by lia. unfold exponent. replace ((c =? 101) || (c =? 69)) with false by lia. reflexivity.
Qed.

Lemma digit_process_ok n ds r : nat_text n ds -> (Z.of_N n <= 2 ^ 53)%Z -> ends_at r -> digit_process (ds ++ r) = Ok (z2d (Z.of_N n), r).
Proof.
  intros ((Hne & Hd) & <- & Hz) Hb Hr. destruct ds as [|c t]; [congruence|]. inversion Hd as [|? ? Hc Ht]; subst.
  cbn [app]. unfold digit_process. rewrite (proj2 (is_digit_iff c) Hc). cbn [negb]. destruct (N.eqb_spec c 48) as [->|Hc0].
  - rewrite (Hz eq_refl) in *. injection (Hz eq_refl) as ->. cbn [app]. change (dec_value [48]) with 0. destruct r as [|d r]; [reflexivity|].
    rewrite (ends_not_digit d Hr). apply (fraction_ends (z2d 0) (d :: r) Hr).
  - change (c :: t ++ r) with ((c :: t) ++ r). change 0%Z with (Z.of_N 0). rewrite (int_part_ok (c :: t) 0 r Hd); [|exact Hb|exact Hr].
    change (horner 0 (c :: t)) with (dec_value (c :: t)). destruct r as [|d r]; [reflexivity|]. apply fraction_ends. exact Hr.
Qed.
Lemma nat_text_head n ds : nat_text n ds -> exists c t, ds = c :: t /\ 48 <= c <= 57.
Proof. intros ((Hne & Hd) & _). destruct ds as [|c t]; [congruence|]. inversion Hd; subst. eauto. Qed.
Lemma parse_digit_ok z t r : (- 2 ^ 53 <= z <= 2 ^ 53)%Z -> int_text z t -> ends_at r -> parse_digit (t ++ r) = Ok (z2d z, r).
Proof.
  intros Hz [(H0 & Ht)|(H0 & t' & -> & Ht)] Hr.
  - destruct (nat_text_head _ _ Ht) as (c & u & E & Hc). subst t. unfold parse_digit. cbn [app]. replace (c =? 45) with false by lia.
    change (c :: u ++ r) with ((c :: u) ++ r). rewrite (digit_process_ok _ _ r Ht); [|lia|exact Hr]. rewrite Z2N.id by lia. reflexivity.
  - destruct (nat_text_head _ _ Ht) as (c & u & E & Hc). unfold parse_digit. cbn [app]. change (45 =? 45) with true. cbn iota.
    rewrite (digit_process_ok _ _ r Ht); [|lia|exact Hr]. rewrite E. cbn [app rbind fst snd]. rewrite Z2N.id by lia. rewrite z2d_opp by lia.
    rewrite Z.opp_involutive. reflexivity.
Qed.

(** ** Strings *)
Lemma hexd_ok c x : hexd c x -> char2int c = x /\ x < 16.
Proof.
  intros [d H|d H|d H]; unfold char2int.
  - rewrite (proj2 (is_digit_iff d) H). lia.
  - replace (is_digit d) with false by (unfold is_digit; lia). replace ((97 <=? d) && (d <=? 102)) with true by lia. lia.
  - replace (is_digit d) with false by (unfold is_digit; lia). replace ((97 <=? d) && (d <=? 102)) with false by lia.
    replace ((65 <=? d) && (d <=? 70)) with true by lia. lia.
Qed.

Lemma shl4 h y : h < 2 ^ 28 -> y < 16 -> N.lor (u32 (N.shiftl h 4)) y = 16 * h + y.
Proof.
  intros Hh Hy. rewrite N.shiftl_mul_pow2. unfold u32. change (2 ^ 4) with 16. rewrite N.mod_small by (change (2 ^ 32) with 4294967296; change (2 ^ 28) with 268435456 in Hh; lia).
  rewrite (lor_add _ _ 4); [lia|exact Hy|]. change (2 ^ 4) with 16. apply N.mod_mul. lia.
Qed.
Lemma hex4_ok a b c d x y z w : hexd a x -> hexd b y -> hexd c z -> hexd d w -> hex4 a b c d = 4096 * x + 256 * y + 16 * z + w.
Proof.
  intros Ha Hb Hc Hd. destruct (hexd_ok _ _ Ha) as [Ea La]. destruct (hexd_ok _ _ Hb) as [Eb Lb].
  destruct (hexd_ok _ _ Hc) as [Ec Lc]. destruct (hexd_ok _ _ Hd) as [Ed Ld]. unfold hex4. rewrite Ea, Eb, Ec, Ed.
  rewrite (shl4 x y), (shl4 (16 * x + y) z), (shl4 (16 * (16 * x + y) + z) w); try assumption; [lia|..]; change (2 ^ 28) with 268435456; lia.
Qed.

Lemma land63 x : N.land x 63 = x mod 64.
Proof. change 63 with (N.ones 6). rewrite N.land_ones. reflexivity. Qed.
Lemma utf8_ok u : u < 65536 -> utf8 u = utf8_spec u.
Proof.
  intros H. unfold utf8, utf8_spec. rewrite !land255, !land63, !N.shiftr_div_pow2. change (2 ^ 6) with 64. change (2 ^ 12) with 4096.
  destruct (N.leb_spec u 127), (N.ltb_spec u 128); try lia.
  { f_equal. rewrite !N.mod_small; lia. }
  assert (P : forall x, x < 64 -> N.lor 128 x mod 256 = 128 + x). { intros x Hx. rewrite (lor_add 128 x 6); [rewrite N.mod_small; lia|exact Hx|reflexivity]. }
  destruct (N.leb_spec u 2047), (N.ltb_spec u 2048); try lia.
  { assert (u / 64 < 32) by (apply N.div_lt_upper_bound; lia). rewrite (N.mod_small (u / 64) 256) by lia.
    rewrite (lor_add 192 (u / 64) 6); [|change (2 ^ 6) with 64; lia|reflexivity]. rewrite N.mod_small by lia.
    rewrite P by (apply N.mod_lt; lia). reflexivity. }
  replace (u <=? 65535) with true by lia.
  assert (u / 4096 < 16) by (apply N.div_lt_upper_bound; lia). rewrite (N.mod_small (u / 4096) 256) by lia.
  rewrite (lor_add 224 (u / 4096) 5); [|change (2 ^ 5) with 32; lia|reflexivity]. rewrite (N.mod_small (224 + _)) by lia.
  rewrite !P by (apply N.mod_lt; lia). reflexivity.
Qed.
Lemma utf8_spec_len u : u < 65536 -> (1 <= length (utf8_spec u) <= 3)%nat.
Proof. intros H. unfold utf8_spec. destruct (u <? 128), (u <? 2048); cbn [length]; lia. Qed.

Lemma hexd_plain c x : hexd c x -> c <> 34 /\ c <> 92.
Proof. intros [d H|d H|d H]; lia. Qed.
Lemma scan_plain c t : c <> 34 -> c <> 92 -> scan false (c :: t) = (p <- scan false t ;; Some (c :: fst p, snd p)).
Proof. intros H1 H2. cbn [scan negb andb]. replace (c =? 92) with false by lia. replace (c =? 34) with false by lia. reflexivity. Qed.
Lemma scan_slash c t : scan false (92 :: c :: t) = (p <- scan false t ;; Some (92 :: c :: fst p, snd p)).
Proof. cbn [scan negb andb N.eqb Pos.eqb]. rewrite Bool.andb_false_r. destruct (scan false t) as [[a b]|]; reflexivity. Qed.
Lemma scan_ok u s raw : chars u s raw -> forall r, scan false (raw ++ 34 :: r) = Some (raw, r).
Proof.
  induction 1 as [|c s raw Hb H1 H2 H3 Hc IH|e c s raw He Hc IH|a b c d x y z w s raw Hu Ha Hb Hc Hd code Hs Hr IH]; intros r.
  - reflexivity.
  - cbn [app]. rewrite scan_plain by assumption. rewrite IH. reflexivity.
  - cbn [app]. rewrite scan_slash, IH. reflexivity.
  - cbn [app]. rewrite scan_slash. destruct (hexd_plain _ _ Ha), (hexd_plain _ _ Hb), (hexd_plain _ _ Hc), (hexd_plain _ _ Hd).
    rewrite !scan_plain by assumption. rewrite IH. reflexivity.
Qed.

Lemma fetch_step f cap hex out s c h r : get_char hex s = Some (c, h, r) -> s <> [] ->
  (length out + length (if (c =? 0)%N then utf8 h else [c]) <= cap)%nat ->
  fetch_loop (S f) cap hex out s = fetch_loop f cap h (rev (if c =? 0 then utf8 h else [c]) ++ out) r.
Proof.
  intros H Hs Hl. cbn [fetch_loop]. destruct s as [|x t]; [congruence|]. rewrite H.
  destruct (Nat.ltb_spec cap (length (rev (if (c =? 0)%N then utf8 h else [c]) ++ out))) as [Hlt|_]; [|reflexivity].
  exfalso. rewrite app_length, rev_length in Hlt. lia.
Qed.
Lemma chars_len u s raw : chars u s raw -> (length s <= length raw)%nat.
Proof.
  induction 1 as [|c s raw Hb H1 H2 H3 Hc IH|e c s raw He Hc IH|a b c d x y z w s raw Hu Ha Hb Hc Hd code Hs Hr IH]; cbn [length]; try lia.
  rewrite app_length. assert (code < 65536) by (destruct Hs; lia). pose proof (utf8_spec_len code H). lia.
Qed.
Lemma escapes_ok e c : In (e, c) escapes -> escape e = Some c /\ c <> 0.
Proof.
  unfold escapes. cbn [In]. intros H. repeat (destruct H as [H|H]; [injection H as <- <-; split; [reflexivity|discriminate]|]). destruct H.
Qed.
Lemma fetch_loop_ok u s raw : chars u s raw -> forall f cap hex out, (length raw < f)%nat -> (length out + length raw <= cap)%nat ->
  (u = false -> hex = 0) -> fetch_loop f cap hex out raw = Ok (rev out ++ s).
Proof.
  induction 1 as [|c s raw Hb H1 H2 H3 Hc IH|e c s raw He Hc IH|a b c d x y z w s raw Hu Ha Hb Hc Hd code Hs Hr IH]; intros f cap hex out Hf Hl Hh;
    destruct f as [|f]; try (exfalso; lia); cbn [length] in Hf, Hl.
  - rewrite app_nil_r. reflexivity.
  - assert (E : (if c =? 0 then utf8 hex else [c]) = [c]).
    { destruct (N.eqb_spec c 0) as [E|]; [|reflexivity]. rewrite (Hh (H3 E)), E. reflexivity. }
    rewrite (fetch_step f cap hex out (c :: raw) c hex raw); [|cbn [get_char]; replace (c =? 92) with false by lia; reflexivity|discriminate|rewrite E; cbn [length]; lia].
    rewrite E. cbn [rev app]. rewrite IH; [|lia|cbn [length]; lia|exact Hh]. cbn [rev]. rewrite <- app_assoc. reflexivity.
  - destruct (escapes_ok e c He) as [Ee Ec].
    assert (E : (if c =? 0 then utf8 hex else [c]) = [c]) by (replace (c =? 0) with false by lia; reflexivity).
    rewrite (fetch_step f cap hex out (92 :: e :: raw) c hex raw);
      [|cbn [get_char N.eqb Pos.eqb]; rewrite Ee; reflexivity|discriminate|rewrite E; cbn [length]; lia].
    rewrite E. cbn [rev app]. rewrite IH; [|lia|cbn [length]; lia|exact Hh]. cbn [rev]. rewrite <- app_assoc. reflexivity.
  - assert (Hcode : code < 65536) by (destruct Hs; lia). pose proof (utf8_spec_len code Hcode) as HL.
    rewrite (fetch_step f cap hex out (92 :: 117 :: a :: b :: c :: d :: raw) 0 code raw);
      [|cbn [get_char N.eqb Pos.eqb]; change (escape 117) with (@None N); cbn iota; rewrite (hex4_ok _ _ _ _ _ _ _ _ Ha Hb Hc Hd); reflexivity|discriminate
       |change (0 =? 0) with true; cbn iota; rewrite (utf8_ok code Hcode); lia].
    change (0 =? 0) with true. cbn iota. rewrite (utf8_ok code Hcode). rewrite IH; [|lia|rewrite app_length, rev_length; lia|intros; congruence].
    rewrite rev_app_distr, rev_involutive, <- app_assoc. reflexivity.
Qed.
Lemma fetch_ok u s raw : chars u s raw -> fetch raw = Ok s.
Proof. intros H. unfold fetch. rewrite (fetch_loop_ok u s raw H); [reflexivity|lia|cbn [length]; lia|auto]. Qed.
Lemma parse_string_ok s t k r : string_text s t -> exists t', t = 34 :: t' /\ t' <> [] /\ parse_string no_policy k (t' ++ r) = Ok (s, r).
Proof.
  intros (u & raw & Hc & ->). exists (raw ++ [34]). split; [reflexivity|]. split; [destruct raw; discriminate|].
  rewrite <- app_assoc. cbn [app]. unfold parse_string. rewrite (scan_ok u s raw Hc). rewrite (fetch_ok u s raw Hc). cbn [rbind].
  unfold exceeds. cbn [no_policy p_key p_str N.eqb negb andb]. destruct k; reflexivity.
Qed.
