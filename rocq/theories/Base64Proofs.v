Require Import List Arith NArith Lia Bool.
Require Import ZifyBool ZifyNat ZifyN.
Require Import Verif.Base Verif.Sweep Verif.Base64Model Verif.Base64Spec.
Import ListNotations.
Open Scope N_scope.

Lemma bm_char v : v < 64 -> bm v = Some (b64_char v).
Proof.
  intros H. pose proof (sweep1 64 (fun v => match bm v with Some c => c =? b64_char v | None => false end)
    ltac:(vm_compute; reflexivity) v H) as E. cbv beta in E.
  destruct (bm v); [|discriminate]. apply N.eqb_eq in E. congruence.
Qed.

Lemma asc_char v : v < 64 -> asc (b64_char v) = Some v.
Proof.
  intros H. pose proof (sweep1 64 (fun v => match asc (b64_char v) with Some c => c =? v | None => false end)
    ltac:(vm_compute; reflexivity) v H) as E. cbv beta in E.
  destruct (asc (b64_char v)); [|discriminate]. apply N.eqb_eq in E. congruence.
Qed.

Lemma char_neq v : v < 64 -> (b64_char v =? eqc) = false.
Proof.
  intros H. pose proof (sweep1 64 (fun v => negb (b64_char v =? eqc))
    ltac:(vm_compute; reflexivity) v H) as E. cbv beta in E. now apply negb_true_iff.
Qed.

Lemma asc_some x : x < 256 -> exists a, asc x = Some a /\ a < 64.
Proof.
  intros H. pose proof (sweep1 256 (fun v => match asc v with Some c => c <? 64 | None => false end)
    ltac:(vm_compute; reflexivity) x H) as E. cbv beta in E.
  destruct (asc x) as [a|]; [|discriminate]. exists a. split; auto. lia.
Qed.

Lemma store_app {A} (l1 : list A) x l2 j v :
  j = length l1 -> store (l1 ++ x :: l2) j v = Some (l1 ++ v :: l2).
Proof.
  intros ->. unfold store. rewrite app_length. cbn [length].
  destruct (Nat.ltb_spec (length l1) (length l1 + S (length l2))); [|lia].
  f_equal. rewrite upd_app2 by lia. rewrite Nat.sub_diag. reflexivity.
Qed.

Lemma store_some {A} (l : list A) j v : (j < length l)%nat -> store l j v = Some (upd l j v).
Proof. intros H. unfold store. destruct (Nat.ltb_spec j (length l)); [reflexivity|lia]. Qed.

(** Splitting a 24-bit group; finite sweeps over one or two bytes. *)
Lemma bits0 a : a < 256 -> N.land (N.shiftr a 2) 63 = a / 4.
Proof.
  intros H. apply N.eqb_eq.
  exact (sweep1 256 (fun a => N.land (N.shiftr a 2) 63 =? a / 4) ltac:(vm_compute; reflexivity) a H).
Qed.
Lemma bits1 a b : a < 256 -> b < 256 ->
  N.lor (N.shiftl (N.land a 3) 4) (N.land (N.shiftr b 4) 15) = (a mod 4) * 16 + b / 16.
Proof.
  intros H H2. apply N.eqb_eq.
  exact (sweep2 256 256 (fun a b => N.lor (N.shiftl (N.land a 3) 4) (N.land (N.shiftr b 4) 15) =? (a mod 4) * 16 + b / 16)
   ltac:(vm_compute; reflexivity) a b H H2).
Qed.
Lemma bits2 b c : b < 256 -> c < 256 ->
  N.lor (N.shiftl (N.land b 15) 2) (N.land (N.shiftr c 6) 3) = (b mod 16) * 4 + c / 64.
Proof.
  intros H H2. apply N.eqb_eq.
  exact (sweep2 256 256 (fun b c => N.lor (N.shiftl (N.land b 15) 2) (N.land (N.shiftr c 6) 3) =? (b mod 16) * 4 + c / 64)
   ltac:(vm_compute; reflexivity) b c H H2).
Qed.
Lemma bits1' a : a < 256 -> N.shiftl (N.land a 3) 4 = (a mod 4) * 16.
Proof.
  intros H. apply N.eqb_eq.
  exact (sweep1 256 (fun a => N.shiftl (N.land a 3) 4 =? (a mod 4) * 16) ltac:(vm_compute; reflexivity) a H).
Qed.
Lemma bits2' a : a < 256 -> N.shiftl (N.land a 15) 2 = (a mod 16) * 4.
Proof.
  intros H. apply N.eqb_eq.
  exact (sweep1 256 (fun a => N.shiftl (N.land a 15) 2 =? (a mod 16) * 4) ltac:(vm_compute; reflexivity) a H).
Qed.
Lemma bits3 c : c < 256 -> N.land c 63 = c mod 64.
Proof. intros _. exact (N.land_ones c 6). Qed.

Lemma nth_error_mid {A} (pre : list A) x l i : i = length pre -> nth_error (pre ++ x :: l) i = Some x.
Proof. intros ->. rewrite nth_error_app2 by lia. rewrite Nat.sub_diag. reflexivity. Qed.

Lemma nth_error_pre {A} (pre l : list A) k : nth_error (pre ++ l) (length pre + k) = nth_error l k.
Proof. rewrite nth_error_app2 by lia. f_equal. lia. Qed.

Lemma nth_error_pre1 {A} (pre : list A) x y l : nth_error (pre ++ x :: y :: l) (length pre + 1) = Some y.
Proof. rewrite nth_error_pre. reflexivity. Qed.
Lemma nth_error_preS {A} (pre : list A) x y l : nth_error (pre ++ x :: y :: l) (S (length pre)) = Some y.
Proof. rewrite <- Nat.add_1_r, nth_error_pre. reflexivity. Qed.
Lemma nth_error_pre2 {A} (pre : list A) x y z l : nth_error (pre ++ x :: y :: z :: l) (S (length pre) + 1) = Some z.
Proof. replace (S (length pre) + 1)%nat with (length pre + 2)%nat by lia. rewrite nth_error_pre. reflexivity. Qed.

Definition triple_ind (P : list N -> Prop) (H0 : P []) (H1 : forall a, P [a]) (H2 : forall a b, P [a; b])
  (H3 : forall a b c t, P t -> P (a :: b :: c :: t)) : forall l, P l :=
  fix F l := match l with
  | [] => H0 | [a] => H1 a | [a; b] => H2 a b | a :: b :: c :: t => H3 a b c t (F t) end.

Ltac lens := repeat (rewrite app_length in * || cbn [length] in * ).

Ltac stepb := try match goal with
  | |- context [(?a <? ?b)%nat] => destruct (Nat.ltb_spec a b); [try (lens; lia)|try (lens; lia)]
  | |- context [(?a <=? ?b)%nat] => destruct (Nat.leb_spec a b); [try (lens; lia)|try (lens; lia)]
  end.

Lemma enc_loop_spec : forall rest pre done fuel,
  bytes rest -> (2 * length rest < fuel)%nat ->
  enc_loop fuel (pre ++ rest) (length pre) 0 (length done) (done ++ repeat 0 (length (b64_spec rest) + 1)) =
  Some (done ++ b64_spec rest ++ [0]).
Proof.
  apply (triple_ind (fun rest => forall pre done fuel, bytes rest -> (2 * length rest < fuel)%nat ->
  enc_loop fuel (pre ++ rest) (length pre) 0 (length done) (done ++ repeat 0 (length (b64_spec rest) + 1)) =
  Some (done ++ b64_spec rest ++ [0]))).
  - intros pre done fuel _ Hf. destruct fuel; [lia|]. cbn [enc_loop]. stepb. reflexivity.
  - intros a pre done fuel Hb Hf. inversion Hb as [|? ? Ha _]; subst. red in Ha.
    do 2 (destruct fuel; [cbn in Hf; lia|]).
    cbn [b64_spec length Nat.add repeat].
    cbn [enc_loop]. stepb. rewrite nth_error_mid by reflexivity. cbn [obind].
    rewrite bits0 by auto. rewrite bm_char by lia. cbn [obind].
    rewrite store_app by reflexivity. cbn [obind].
    stepb. stepb. rewrite bits1' by auto. rewrite bm_char by lia. cbn [obind].
    replace (done ++ b64_char (a/4) :: [0;0;0;0]) with ((done ++ [b64_char (a/4)]) ++ 0 :: [0;0;0]) by (rewrite <- app_assoc; reflexivity).
    rewrite store_app by (lens; lia). cbn [obind].
    rewrite app_assoc_reverse; cbn [app].
    replace (done ++ b64_char (a/4) :: b64_char (a mod 4 * 16) :: [0;0;0]) with ((done ++ [b64_char (a/4); b64_char (a mod 4 * 16)]) ++ 0 :: [0;0]) by (rewrite <- app_assoc; reflexivity).
    rewrite store_app by (lens; lia). cbn [obind].
    rewrite app_assoc_reverse; cbn [app].
    replace (done ++ b64_char (a/4) :: b64_char (a mod 4 * 16) :: eqc :: [0;0]) with ((done ++ [b64_char (a/4); b64_char (a mod 4 * 16); eqc]) ++ 0 :: [0]) by (rewrite <- app_assoc; reflexivity).
    rewrite store_app by (lens; lia).
    rewrite app_assoc_reverse; cbn [app].
    replace (a * 65536 / 262144) with (a / 4) by lia.
    replace (a * 65536 / 4096 mod 64) with (a mod 4 * 16) by lia.
    reflexivity.
  - intros a b pre done fuel Hb Hf. inversion Hb as [|? ? Ha Hb']; subst. inversion Hb' as [|? ? Hb2 _]; subst. red in Ha, Hb2.
    do 3 (destruct fuel; [cbn in Hf; lia|]).
    cbn [b64_spec length Nat.add repeat].
    cbn [enc_loop]. stepb. rewrite nth_error_mid by reflexivity. cbn [obind].
    rewrite bits0 by auto. rewrite bm_char by lia. cbn [obind].
    rewrite store_app by reflexivity. cbn [obind].
    stepb. stepb. rewrite nth_error_pre1. cbn [obind].
    rewrite bits1 by auto. rewrite bm_char by lia. cbn [obind].
    set (c0 := b64_char (a/4)). set (c1 := b64_char (a mod 4 * 16 + b / 16)).
    replace (done ++ c0 :: [0;0;0;0]) with ((done ++ [c0]) ++ 0 :: [0;0;0]) by (rewrite <- app_assoc; reflexivity).
    rewrite store_app by (lens; lia). cbn [obind].
    rewrite app_assoc_reverse; cbn [app].
    stepb. rewrite nth_error_preS. cbn [obind].
    stepb. rewrite bits2' by auto. rewrite bm_char by lia. cbn [obind].
    set (c2 := b64_char (b mod 16 * 4)).
    replace (done ++ c0 :: c1 :: [0;0;0]) with ((done ++ [c0; c1]) ++ 0 :: [0;0]) by (rewrite <- app_assoc; reflexivity).
    rewrite store_app by (lens; lia). cbn [obind].
    rewrite app_assoc_reverse; cbn [app].
    replace (done ++ c0 :: c1 :: c2 :: [0;0]) with ((done ++ [c0; c1; c2]) ++ 0 :: [0]) by (rewrite <- app_assoc; reflexivity).
    rewrite store_app by (lens; lia). cbn [obind].
    rewrite app_assoc_reverse; cbn [app].
    unfold c0, c1, c2.
    replace ((a * 65536 + b * 256) / 262144) with (a / 4) by lia.
    replace ((a * 65536 + b * 256) / 4096 mod 64) with (a mod 4 * 16 + b / 16) by lia.
    replace ((a * 65536 + b * 256) / 64 mod 64) with (b mod 16 * 4) by lia.
    reflexivity.
  - intros a b c t IH pre done fuel Hb Hf.
    inversion Hb as [|? ? Ha Hb']; subst. inversion Hb' as [|? ? Hb2 Hb'']; subst. inversion Hb'' as [|? ? Hc Ht]; subst.
    red in Ha, Hb2, Hc.
    do 3 (destruct fuel; [cbn in Hf; lia|]).
    cbn [b64_spec app length Nat.add repeat].
    cbn [enc_loop]. stepb. rewrite nth_error_mid by reflexivity. cbn [obind].
    rewrite bits0 by auto. rewrite bm_char by lia. cbn [obind].
    rewrite store_app by reflexivity. cbn [obind].
    stepb. stepb. rewrite nth_error_pre1. cbn [obind].
    rewrite bits1 by auto. rewrite bm_char by lia. cbn [obind].
    set (zs := repeat 0 (length (b64_spec t) + 1)).
    set (c0 := b64_char (a/4)). set (c1 := b64_char (a mod 4 * 16 + b / 16)).
    replace (done ++ c0 :: 0 :: 0 :: 0 :: zs) with ((done ++ [c0]) ++ 0 :: 0 :: 0 :: zs) by (rewrite <- app_assoc; reflexivity).
    rewrite store_app by (lens; lia). cbn [obind].
    rewrite app_assoc_reverse; cbn [app].
    stepb. rewrite nth_error_preS. cbn [obind].
    stepb. rewrite nth_error_pre2. cbn [obind].
    rewrite bits2 by auto. rewrite bm_char by lia. cbn [obind].
    set (c2 := b64_char (b mod 16 * 4 + c / 64)).
    replace (done ++ c0 :: c1 :: 0 :: 0 :: zs) with ((done ++ [c0; c1]) ++ 0 :: 0 :: zs) by (rewrite <- app_assoc; reflexivity).
    rewrite store_app by (lens; lia). cbn [obind].
    rewrite bits3 by auto. rewrite bm_char by lia. cbn [obind].
    rewrite app_assoc_reverse; cbn [app].
    set (c3 := b64_char (c mod 64)).
    replace (done ++ c0 :: c1 :: c2 :: 0 :: zs) with ((done ++ [c0; c1; c2]) ++ 0 :: zs) by (rewrite <- app_assoc; reflexivity).
    rewrite store_app by (lens; lia). cbn [obind].
    rewrite app_assoc_reverse; cbn [app].
    specialize (IH (pre ++ [a; b; c]) (done ++ [c0; c1; c2; c3]) fuel Ht ltac:(cbn [length] in Hf; lia)).
    fold zs in IH.
    rewrite !app_length in IH. cbn [length] in IH. rewrite <- !app_assoc in IH. cbn [app] in IH.
    replace (S (S (S (length pre)))) with (length pre + 3)%nat by lia.
    replace (S (S (S (S (length done))))) with (length done + 4)%nat by lia.
    rewrite IH. f_equal. f_equal.
    unfold c0, c1, c2, c3.
    replace ((a * 65536 + b * 256 + c) / 262144) with (a / 4) by lia.
    replace ((a * 65536 + b * 256 + c) / 4096 mod 64) with (a mod 4 * 16 + b / 16) by lia.
    replace ((a * 65536 + b * 256 + c) / 64 mod 64) with (b mod 16 * 4 + c / 64) by lia.
    replace ((a * 65536 + b * 256 + c) mod 64) with (c mod 64) by lia.
    reflexivity.
Qed.

Lemma spec_length l : length (b64_spec l) = b64_outlen (length l).
Proof.
  revert l. apply triple_ind; intros; try reflexivity.
  cbn [b64_spec length app]. rewrite H. unfold b64_outlen.
  replace (S (S (S (length t)))) with (length t + 1 * 3)%nat by lia.
  rewrite Nat.div_add, Nat.mod_add by lia. lia.
Qed.

Lemma encode_ok l : bytes l -> b64_encode l = Some (b64_spec l ++ [0], length (b64_spec l)).
Proof.
  intros H. unfold b64_encode. rewrite <- spec_length.
  pose proof (enc_loop_spec l [] [] (S (length l + length l)) H ltac:(lia)) as E.
  cbn [app length] in E. replace (length (b64_spec l) + 1)%nat with (S (length (b64_spec l))) in E by lia.
  rewrite E. reflexivity.
Qed.

(** One group of four characters in the decoder. *)
Section DecGroup.
Variables (pre done t : list N) (w x y z a0 a1 a2 a3 : N).
Hypothesis (A0 : asc w = Some a0) (A1 : asc x = Some a1) (A2 : asc y = Some a2) (A3 : asc z = Some a3).
Let inb := pre ++ w :: x :: y :: z :: t.
Let v0 := N.lor (u8 (N.shiftl a0 2)) (N.land (N.shiftr a1 4) 3).
Let v1 := N.lor (u8 (N.shiftl (N.land a1 15) 4)) (N.land (N.shiftr a2 2) 15).
Let v2 := N.lor (u8 (N.shiftl (N.land a2 3) 6)) (N.land a3 63).

Lemma inb_nth0 : nth_error inb (length pre) = Some w.
Proof. unfold inb. apply nth_error_mid; auto. Qed.
Lemma inb_nth1 : nth_error inb (S (length pre)) = Some x.
Proof. unfold inb. apply nth_error_preS; auto. Qed.
Lemma inb_nth2 : nth_error inb (S (S (length pre))) = Some y.
Proof. unfold inb. replace (S (S (length pre))) with (length pre + 2)%nat by lia. rewrite nth_error_pre. reflexivity. Qed.
Lemma inb_nth3 : nth_error inb (S (S (S (length pre)))) = Some z.
Proof. unfold inb. replace (S (S (S (length pre)))) with (length pre + 3)%nat by lia. rewrite nth_error_pre. reflexivity. Qed.
Lemma inb_len : length inb = (length pre + 4 + length t)%nat.
Proof. unfold inb. rewrite app_length. cbn. lia. Qed.
Lemma lt_true a b : (a < b)%nat -> (a <? b)%nat = true.
Proof. intros. now apply Nat.ltb_lt. Qed.

Lemma shift_cell (p : N) zs c j : j = length done -> nth_error (done ++ c :: zs) j = Some c.
Proof. intros ->. rewrite nth_error_app2, Nat.sub_diag by lia. reflexivity. Qed.

Lemma dec_prefix k p zs :
  dec_loop (S (S (S k))) inb (length pre) 0 (length done) (done ++ p :: zs) =
  (o <- store (done ++ v0 :: zs) (S (length done)) (u8 (N.shiftl (N.land a1 15) 4)) ;;
   dec_loop k inb (S (S (length pre))) 3 (S (length done)) o).
Proof.
  cbn [dec_loop]. rewrite inb_len.
  rewrite !lt_true by lia. rewrite inb_nth0. cbn [obind]. rewrite A0; cbn [obind].
  rewrite store_app by reflexivity. cbn [obind].
  rewrite inb_nth1; cbn [obind]. rewrite A1; cbn [obind].
  rewrite shift_cell by auto; cbn [obind].
  rewrite store_app by reflexivity. cbn [obind]. reflexivity.
Qed.

Lemma dec_group_full k p q r zs :
  (y =? eqc) = false -> (z =? eqc) = false ->
  dec_loop (6 + k) inb (length pre) 0 (length done) (done ++ p :: q :: r :: zs) =
  dec_loop k inb (4 + length pre) 0 (3 + length done) (done ++ v0 :: v1 :: v2 :: zs).
Proof.
  intros Hy Hz. cbn [Nat.add]. rewrite dec_prefix.
  replace (done ++ v0 :: q :: r :: zs) with ((done ++ [v0]) ++ q :: r :: zs) by (rewrite <- app_assoc; reflexivity).
  rewrite store_app by (rewrite app_length; cbn; lia). cbn [obind].
  cbn [dec_loop]. rewrite inb_len. rewrite !lt_true by lia.
  rewrite inb_nth2; cbn [obind]. rewrite A2; cbn [obind]. rewrite Hy.
  rewrite nth_error_mid by (rewrite app_length; cbn; lia). cbn [obind].
  rewrite store_app by (rewrite app_length; cbn; lia). cbn [obind].
  fold v1. rewrite <- (app_assoc done). cbn [app].
  replace (done ++ v0 :: v1 :: r :: zs) with ((done ++ [v0; v1]) ++ r :: zs) by (rewrite <- app_assoc; reflexivity).
  rewrite store_app by (rewrite app_length; cbn; lia). cbn [obind].
  rewrite inb_nth3; cbn [obind]. rewrite A3; cbn [obind]. rewrite Hz.
  rewrite nth_error_mid by (rewrite app_length; cbn; lia). cbn [obind].
  rewrite store_app by (rewrite app_length; cbn; lia). cbn [obind].
  fold v2. rewrite <- (app_assoc done). cbn [app]. reflexivity.
Qed.

Lemma dec_group_pad2 k p q zs :
  (y =? eqc) = true ->
  dec_loop (6 + k) inb (length pre) 0 (length done) (done ++ p :: q :: zs) =
  Some (done ++ v0 :: u8 (N.shiftl (N.land a1 15) 4) :: zs).
Proof.
  intros Hy. cbn [Nat.add]. rewrite dec_prefix.
  replace (done ++ v0 :: q :: zs) with ((done ++ [v0]) ++ q :: zs) by (rewrite <- app_assoc; reflexivity).
  rewrite store_app by (rewrite app_length; cbn; lia). cbn [obind].
  cbn [dec_loop]. rewrite inb_len. rewrite !lt_true by lia.
  rewrite inb_nth2; cbn [obind]. rewrite A2; cbn [obind]. rewrite Hy.
  rewrite <- (app_assoc done). reflexivity.
Qed.

Lemma dec_group_pad1 k p q r zs :
  (y =? eqc) = false -> (z =? eqc) = true ->
  dec_loop (6 + k) inb (length pre) 0 (length done) (done ++ p :: q :: r :: zs) =
  Some (done ++ v0 :: v1 :: u8 (N.shiftl (N.land a2 3) 6) :: zs).
Proof.
  intros Hy Hz. cbn [Nat.add]. rewrite dec_prefix.
  replace (done ++ v0 :: q :: r :: zs) with ((done ++ [v0]) ++ q :: r :: zs) by (rewrite <- app_assoc; reflexivity).
  rewrite store_app by (rewrite app_length; cbn; lia). cbn [obind].
  cbn [dec_loop]. rewrite inb_len. rewrite !lt_true by lia.
  rewrite inb_nth2; cbn [obind]. rewrite A2; cbn [obind]. rewrite Hy.
  rewrite nth_error_mid by (rewrite app_length; cbn; lia). cbn [obind].
  rewrite store_app by (rewrite app_length; cbn; lia). cbn [obind].
  fold v1. rewrite <- (app_assoc done). cbn [app].
  replace (done ++ v0 :: v1 :: r :: zs) with ((done ++ [v0; v1]) ++ r :: zs) by (rewrite <- app_assoc; reflexivity).
  rewrite store_app by (rewrite app_length; cbn; lia). cbn [obind].
  rewrite inb_nth3; cbn [obind]. rewrite A3; cbn [obind]. rewrite Hz.
  rewrite <- (app_assoc done). reflexivity.
Qed.
End DecGroup.

Lemma v0_ok a b : a < 256 -> b < 256 ->
  N.lor (u8 (N.shiftl (a / 4) 2)) (N.land (N.shiftr (a mod 4 * 16 + b / 16) 4) 3) = a.
Proof.
  intros Ha Hb. apply N.eqb_eq.
  exact (sweep2 256 256 (fun a b => N.lor (u8 (N.shiftl (a / 4) 2)) (N.land (N.shiftr (a mod 4 * 16 + b / 16) 4) 3) =? a)
    ltac:(vm_compute; reflexivity) a b Ha Hb).
Qed.
Lemma low4 a b : a < 256 -> b < 256 -> N.land (a mod 4 * 16 + b / 16) 15 = b / 16.
Proof. intros. change 15 with (N.ones 4). rewrite N.land_ones. change (2^4) with 16. lia. Qed.
Lemma v1_ok b c : b < 256 -> c < 256 ->
  N.lor (u8 (N.shiftl (b / 16) 4)) (N.land (N.shiftr (b mod 16 * 4 + c / 64) 2) 15) = b.
Proof.
  intros Ha Hb. apply N.eqb_eq.
  exact (sweep2 256 256 (fun b c => N.lor (u8 (N.shiftl (b / 16) 4)) (N.land (N.shiftr (b mod 16 * 4 + c / 64) 2) 15) =? b)
    ltac:(vm_compute; reflexivity) b c Ha Hb).
Qed.
Lemma v2_ok b c : b < 256 -> c < 256 ->
  N.lor (u8 (N.shiftl (N.land (b mod 16 * 4 + c / 64) 3) 6)) (N.land (c mod 64) 63) = c.
Proof.
  intros Ha Hb. apply N.eqb_eq.
  exact (sweep2 256 256 (fun b c => N.lor (u8 (N.shiftl (N.land (b mod 16 * 4 + c / 64) 3) 6)) (N.land (c mod 64) 63) =? c)
    ltac:(vm_compute; reflexivity) b c Ha Hb).
Qed.

Lemma asc_eqc : asc eqc = Some 0.
Proof. vm_compute. reflexivity. Qed.

Lemma dec_loop_spec : forall rest pre done fuel,
  bytes rest -> (2 * length (b64_spec rest) < fuel)%nat ->
  dec_loop fuel (pre ++ b64_spec rest) (length pre) 0 (length done) (done ++ repeat 0 (length rest + 1)) =
  Some (done ++ rest ++ [0]).
Proof.
  apply (triple_ind (fun rest => forall pre done fuel, bytes rest -> (2 * length (b64_spec rest) < fuel)%nat ->
  dec_loop fuel (pre ++ b64_spec rest) (length pre) 0 (length done) (done ++ repeat 0 (length rest + 1)) =
  Some (done ++ rest ++ [0]))).
  - intros pre done fuel _ Hf. destruct fuel; [lia|]. cbn [dec_loop b64_spec]. rewrite app_nil_r.
    destruct (Nat.ltb_spec (length pre) (length pre)); [lia|]. reflexivity.
  - intros a pre done fuel Hb Hf. inversion Hb as [|? ? Ha _]; subst. red in Ha.
    cbn [b64_spec length] in Hf.
    cbn [b64_spec length Nat.add repeat].
    replace fuel with (6 + (fuel - 6))%nat by lia.
    replace (a * 65536 / 262144) with (a / 4) by lia.
    replace (a * 65536 / 4096 mod 64) with (a mod 4 * 16 + 0 / 16) by lia.
    rewrite (dec_group_pad2 pre done [] _ _ 61 61 (a/4) (a mod 4 * 16 + 0/16) 0 0); try reflexivity.
    + rewrite v0_ok by lia. rewrite low4 by lia. reflexivity.
    + apply asc_char; lia.
    + apply asc_char; lia.
  - intros a b pre done fuel Hb Hf. inversion Hb as [|? ? Ha Hb']; subst. inversion Hb' as [|? ? Hb2 _]; subst. red in Ha, Hb2.
    cbn [b64_spec length] in Hf.
    cbn [b64_spec length Nat.add repeat].
    replace fuel with (6 + (fuel - 6))%nat by lia.
    replace ((a * 65536 + b * 256) / 262144) with (a / 4) by lia.
    replace ((a * 65536 + b * 256) / 4096 mod 64) with (a mod 4 * 16 + b / 16) by lia.
    replace ((a * 65536 + b * 256) / 64 mod 64) with (b mod 16 * 4 + 0 / 64) by lia.
    rewrite (dec_group_pad1 pre done [] _ _ _ 61 (a/4) (a mod 4 * 16 + b/16) (b mod 16 * 4 + 0/64) 0); try reflexivity.
    + rewrite v0_ok by lia. rewrite low4 by lia. rewrite v1_ok by lia.
      replace (N.land (b mod 16 * 4 + 0/64) 3) with 0; [reflexivity|].
      change 3 with (N.ones 2). rewrite N.land_ones. change (2^2) with 4. lia.
    + apply asc_char; lia.
    + apply asc_char; lia.
    + apply asc_char; lia.
    + apply char_neq; lia.
  - intros a b c t IH pre done fuel Hb Hf.
    inversion Hb as [|? ? Ha Hb']; subst. inversion Hb' as [|? ? Hb2 Hb'']; subst. inversion Hb'' as [|? ? Hc Ht]; subst.
    red in Ha, Hb2, Hc.
    cbn [b64_spec length app] in Hf.
    cbn [b64_spec length Nat.add repeat app].
    replace fuel with (6 + (fuel - 6))%nat by lia.
    replace ((a * 65536 + b * 256 + c) / 262144) with (a / 4) by lia.
    replace ((a * 65536 + b * 256 + c) / 4096 mod 64) with (a mod 4 * 16 + b / 16) by lia.
    replace ((a * 65536 + b * 256 + c) / 64 mod 64) with (b mod 16 * 4 + c / 64) by lia.
    replace ((a * 65536 + b * 256 + c) mod 64) with (c mod 64) by lia.
    rewrite (dec_group_full pre done _ _ _ _ _ (a/4) (a mod 4 * 16 + b/16) (b mod 16 * 4 + c/64) (c mod 64)).
    2-5: apply asc_char; lia.
    2-3: apply char_neq; lia.
    rewrite v0_ok by lia. rewrite low4 by lia. rewrite v1_ok by lia. rewrite v2_ok by lia.
    set (w := b64_char (a/4)). set (x := b64_char (a mod 4 * 16 + b/16)).
    set (y := b64_char (b mod 16 * 4 + c/64)). set (z := b64_char (c mod 64)).
    specialize (IH (pre ++ [w; x; y; z]) (done ++ [a; b; c]) (fuel - 6)%nat Ht ltac:(lia)).
    rewrite !app_length in IH. cbn [length] in IH. rewrite <- !app_assoc in IH. cbn [app] in IH.
    replace (length pre + 4)%nat with (4 + length pre)%nat in IH by lia.
    replace (length done + 3)%nat with (3 + length done)%nat in IH by lia.
    exact IH.
Qed.

Lemma b64_spec_cons a b c t : b64_spec (a :: b :: c :: t) =
  b64_char ((a * 65536 + b * 256 + c) / 262144) :: b64_char ((a * 65536 + b * 256 + c) / 4096 mod 64) ::
  b64_char ((a * 65536 + b * 256 + c) / 64 mod 64) :: b64_char ((a * 65536 + b * 256 + c) mod 64) :: b64_spec t.
Proof. reflexivity. Qed.

Lemma spec_last_two l : bytes l -> l <> [] ->
  exists l1 l2, nth_error (b64_spec l) (length (b64_spec l) - 1) = Some l1 /\
                nth_error (b64_spec l) (length (b64_spec l) - 2) = Some l2 /\
    (let outlen := (length (b64_spec l) / 4 * 3)%nat in
    let outlen := if l1 =? eqc then (outlen - 1)%nat else outlen in
    let outlen := if l2 =? eqc then (outlen - 1)%nat else outlen in
    outlen = length l) /\ (2 <= length (b64_spec l))%nat /\ (length (b64_spec l) mod 4 = 0)%nat.
Proof.
  revert l. apply (triple_ind (fun l => bytes l -> l <> [] -> exists l1 l2, nth_error (b64_spec l) (length (b64_spec l) - 1) = Some l1 /\
                nth_error (b64_spec l) (length (b64_spec l) - 2) = Some l2 /\
    (let outlen := (length (b64_spec l) / 4 * 3)%nat in
    let outlen := if l1 =? eqc then (outlen - 1)%nat else outlen in
    let outlen := if l2 =? eqc then (outlen - 1)%nat else outlen in
    outlen = length l) /\ (2 <= length (b64_spec l))%nat /\ (length (b64_spec l) mod 4 = 0)%nat)).
  - congruence.
  - intros a Hb _. do 2 eexists. split; [reflexivity|]. split; [reflexivity|]. split; [reflexivity|]. split; [cbn; lia|reflexivity].
  - intros a b Hb _. do 2 eexists. split; [reflexivity|]. split; [reflexivity|].
    inversion Hb as [|? ? Ha Hb']; subst. inversion Hb' as [|? ? Hb2 _]; subst. red in Ha, Hb2.
    split; [|split; [cbn; lia|reflexivity]].
    cbv zeta. rewrite char_neq by lia. reflexivity.
  - intros a b c t IH Hb _.
    inversion Hb as [|? ? Ha Hb']; subst. inversion Hb' as [|? ? Hb2 Hb'']; subst. inversion Hb'' as [|? ? Hc Ht]; subst.
    red in Ha, Hb2, Hc. destruct t as [|d t].
    + do 2 eexists. split; [reflexivity|]. split; [reflexivity|].
      split; [|split; [cbn; lia|reflexivity]].
      cbv zeta. rewrite !char_neq by lia. reflexivity.
    + destruct (IH Ht ltac:(congruence)) as (l1 & l2 & E1 & E2 & E3 & E4 & E5).
      exists l1, l2. rewrite b64_spec_cons. remember (d :: t) as dt eqn:Edt. cbn [length].
      set (n := length (b64_spec dt)) in *.
      replace (S (S (S (S n))) - 1)%nat with (S (S (S (S (n - 1))))) by lia.
      replace (S (S (S (S n))) - 2)%nat with (S (S (S (S (n - 2))))) by lia.
      split; [exact E1|]. split; [exact E2|].
      replace (S (S (S (S n)))) with (n + 1 * 4)%nat by lia.
      split; [|split; [lia|rewrite Nat.mod_add by lia; exact E5]].
      cbv zeta in *. rewrite Nat.div_add by lia.
      assert (Hd : (1 <= n / 4)%nat) by (apply Nat.div_le_lower_bound; lia).
      destruct (l1 =? eqc), (l2 =? eqc); lia.
Qed.

Lemma decode_encode l : bytes l -> l <> [] ->
  b64_decode (b64_spec l) = Some (DecOk (l ++ [0]) (length l)).
Proof.
  intros Hb Hn. destruct (spec_last_two l Hb Hn) as (l1 & l2 & E1 & E2 & E3 & E4 & E5).
  unfold b64_decode. rewrite E5. cbn [Nat.eqb negb].
  destruct (Nat.ltb_spec (length (b64_spec l)) 2); [lia|].
  rewrite E1, E2. cbn [obind]. cbv zeta in *. rewrite E3.
  pose proof (dec_loop_spec l [] [] (S (length (b64_spec l) + length (b64_spec l))) Hb ltac:(lia)) as E.
  cbn [app length] in E. replace (length l + 1)%nat with (S (length l)) in E by lia.
  rewrite E. reflexivity.
Qed.

(** Decoding arbitrary bytes never leaves the buffers. *)
Lemma split_at {A} (o : list A) j : (j <= length o)%nat -> exists d r, o = d ++ r /\ length d = j.
Proof.
  intros H. exists (firstn j o), (skipn j o). rewrite firstn_skipn. split; auto.
  rewrite firstn_length. lia.
Qed.

Lemma dec_loop_safe : forall h rest pre o j fuel,
  bytes rest -> length rest = (4 * S h)%nat -> (2 * length rest < fuel)%nat ->
  (j + 3 * h + 2 <= length o)%nat ->
  (forall l1 l2, nth_error rest (4 * h + 3) = Some l1 -> nth_error rest (4 * h + 2) = Some l2 ->
     l2 <> eqc -> (j + 3 * h + 3 <= length o)%nat) ->
  exists o', dec_loop fuel (pre ++ rest) (length pre) 0 j o = Some o' /\ length o' = length o.
Proof.
  induction h as [|h IH]; intros rest pre o j fuel Hb Hl Hf Hj Hlast.
  - destruct rest as [|w [|x [|y [|z rest]]]]; cbn [length] in Hl; try lia.
    destruct rest; cbn [length] in Hl; try lia.
    inversion Hb as [|? ? B0 Hb0]; subst. inversion Hb0 as [|? ? B1 Hb1]; subst.
    inversion Hb1 as [|? ? B2 Hb2]; subst. inversion Hb2 as [|? ? B3 _]; subst.
    destruct (asc_some w B0) as (a0 & A0 & _), (asc_some x B1) as (a1 & A1 & _),
      (asc_some y B2) as (a2 & A2 & _), (asc_some z B3) as (a3 & A3 & _).
    cbn [length] in Hf. replace fuel with (6 + (fuel - 6))%nat by lia.
    destruct (split_at o j ltac:(lia)) as (d & r & -> & Hd). rewrite app_length in *. subst j.
    destruct r as [|p [|q r]]; cbn [length] in Hj; try lia.
    destruct (y =? eqc) eqn:Ey.
    + rewrite (dec_group_pad2 pre d [] w x y z a0 a1 a2 0) by auto.
      eexists; split; [reflexivity|]. rewrite app_length. reflexivity.
    + specialize (Hlast z y eq_refl eq_refl ltac:(apply N.eqb_neq; auto)). cbn [length] in Hlast.
      destruct r as [|r0 r]; cbn [length] in Hlast; try lia.
      destruct (z =? eqc) eqn:Ez.
      * rewrite (dec_group_pad1 pre d [] w x y z a0 a1 a2 a3) by auto.
        eexists; split; [reflexivity|]. rewrite app_length. reflexivity.
      * rewrite (dec_group_full pre d [] w x y z a0 a1 a2 a3) by auto.
        destruct (fuel - 6)%nat eqn:Ef; [lia|]. cbn [dec_loop].
        rewrite app_length. cbn [length].
        destruct (Nat.ltb_spec (4 + length pre) (length pre + 4)); [lia|].
        eexists; split; [reflexivity|]. rewrite app_length. reflexivity.
  - destruct rest as [|w [|x [|y [|z rest]]]]; cbn [length] in Hl; try lia.
    inversion Hb as [|? ? B0 Hb0]; subst. inversion Hb0 as [|? ? B1 Hb1]; subst.
    inversion Hb1 as [|? ? B2 Hb2]; subst. inversion Hb2 as [|? ? B3 Hr]; subst.
    destruct (asc_some w B0) as (a0 & A0 & _), (asc_some x B1) as (a1 & A1 & _),
      (asc_some y B2) as (a2 & A2 & _), (asc_some z B3) as (a3 & A3 & _).
    cbn [length] in Hf. replace fuel with (6 + (fuel - 6))%nat by lia.
    destruct (split_at o j ltac:(lia)) as (d & r & -> & Hd). rewrite app_length in *. subst j.
    destruct r as [|p [|q [|r0 r]]]; cbn [length] in Hj; try lia.
    destruct (y =? eqc) eqn:Ey.
    + rewrite (dec_group_pad2 pre d rest w x y z a0 a1 a2 0) by auto.
      eexists; split; [reflexivity|]. rewrite app_length. reflexivity.
    + destruct (z =? eqc) eqn:Ez.
      * rewrite (dec_group_pad1 pre d rest w x y z a0 a1 a2 a3) by auto.
        eexists; split; [reflexivity|]. rewrite app_length. reflexivity.
      * rewrite (dec_group_full pre d rest w x y z a0 a1 a2 a3) by auto.
        match goal with |- context [dec_loop _ _ _ _ _ ?o1] => set (o' := o1) end.
        assert (Ho : length o' = (length d + S (S (S (length r))))%nat) by (unfold o'; rewrite app_length; reflexivity).
        destruct (IH rest (pre ++ [w;x;y;z]) o' (3 + length d)%nat (fuel - 6)%nat) as (o2 & E & Ho2); auto; try lia.
        { intros l1 l2 E1 E2 Hne. specialize (Hlast l1 l2). cbn [length] in Hlast.
          replace (4 * S h + 3)%nat with (S (S (S (S (4 * h + 3))))) in Hlast by lia.
          replace (4 * S h + 2)%nat with (S (S (S (S (4 * h + 2))))) in Hlast by lia.
          specialize (Hlast E1 E2 Hne). lia. }
        rewrite app_length in E. cbn [length] in E. rewrite <- app_assoc in E. cbn [app] in E.
        replace (length pre + 4)%nat with (4 + length pre)%nat in E by lia.
        exists o2. split; [exact E|]. rewrite Ho2, Ho. cbn [length]. lia.
Qed.

Lemma decode_safe l : bytes l -> l <> [] -> b64_decode l <> None.
Proof.
  intros Hb Hn. unfold b64_decode. destruct (Nat.eqb_spec (length l mod 4) 0) as [Hm|Hm]; cbn [negb]; [|discriminate].
  assert (Hl : (length l <> 0)%nat) by (destruct l; cbn; congruence).
  pose proof (Nat.div_mod (length l) 4 ltac:(lia)) as Hd.
  destruct (Nat.ltb_spec (length l) 2); [lia|].
  destruct (nth_error l (length l - 1)) as [l1|] eqn:E1; [|apply nth_error_None in E1; lia].
  destruct (nth_error l (length l - 2)) as [l2|] eqn:E2; [|apply nth_error_None in E2; lia].
  cbn [obind].
  destruct (length l / 4)%nat as [|h] eqn:Eh; [lia|].
  set (outlen := if l2 =? eqc then _ else _).
  destruct (dec_loop_safe h l [] (repeat 0 (S outlen)) 0 (S (length l + length l))) as (o' & E & _); auto; try lia.
  - rewrite repeat_length. unfold outlen. destruct (l1 =? eqc), (l2 =? eqc); lia.
  - intros k1 k2 F1 F2 Hne. rewrite repeat_length. unfold outlen.
    replace (4 * h + 2)%nat with (length l - 2)%nat in F2 by lia. rewrite E2 in F2. injection F2 as ->.
    apply N.eqb_neq in Hne. rewrite Hne. destruct (l1 =? eqc); lia.
  - cbn [app length] in E. rewrite E. discriminate.
Qed.

Lemma decode_empty_ub : b64_decode [] = None.
Proof. reflexivity. Qed.

Lemma decode_bad_length l : (length l mod 4 <> 0)%nat -> b64_decode l = Some DecErr.
Proof. intros H. unfold b64_decode. destruct (Nat.eqb_spec (length l mod 4) 0); [contradiction|reflexivity]. Qed.
