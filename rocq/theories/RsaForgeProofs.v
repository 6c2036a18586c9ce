(** A signature computed without the private key, for keys with exponent 3. *)
Require Import List NArith ZArith Bool Lia Arith.
Require Import ZifyBool ZifyNat ZifyN.
Import ListNotations.
Require Import Verif.Base Verif.BnModel Verif.BnSpec Verif.EndianSpec Verif.EndianProofs Verif.BnStringProofs Verif.BnLimbProofs.
Require Import Verif.RsaModel Verif.RsaSpec Verif.RsaProofs Verif.RsaBlockProofs Verif.RsaSignProofs.
Local Open Scope N_scope.

(** The largest number of [i] bits more than [c] whose cube is at most [x]. *)
Fixpoint cube_root (i : nat) (c x : N) : N :=
  match i with
  | O => c
  | S j => let c' := c + 2 ^ N.of_nat j in cube_root j (if c' ^ 3 <=? x then c' else c) x
  end.

Lemma cube_root_ok i : forall c x, c ^ 3 <= x -> x < (c + 2 ^ N.of_nat i) ^ 3 ->
  cube_root i c x ^ 3 <= x < (cube_root i c x + 1) ^ 3.
Proof.
  induction i as [|i IH]; intros c x L H; cbn [cube_root]; [split; assumption|].
  cbv zeta. destruct (N.leb_spec ((c + 2 ^ N.of_nat i) ^ 3) x) as [C|C].
  - apply IH; [exact C|]. eapply N.lt_le_trans; [exact H|]. apply N.pow_le_mono_l.
    replace (N.of_nat (S i)) with (N.succ (N.of_nat i)) by lia. rewrite N.pow_succ_r'. lia.
  - apply IH; assumption.
Qed.

(** The largest cube that begins, in 105 bytes, with the DigestInfo for MD5. *)
Definition forge (k : nat) (m : list N) : list N :=
  let x := be_value (digest_info MD5 m) * 256 ^ 71 + (256 ^ 71 - 1) in
  let c := cube_root 280 0 x in
  be_bytes k c.

Lemma forge_cube d : d < 256 ^ 34 ->
  exists r, r < 256 ^ 71 /\ cube_root 280 0 (d * 256 ^ 71 + (256 ^ 71 - 1)) ^ 3 = d * 256 ^ 71 + r /\
    cube_root 280 0 (d * 256 ^ 71 + (256 ^ 71 - 1)) < 256 ^ 35.
Proof.
  intros D. set (x := d * 256 ^ 71 + (256 ^ 71 - 1)).
  assert (X : x < (256 ^ 35) ^ 3).
  { unfold x. rewrite <- N.pow_mul_r. change (35 * 3) with (34 + 71). rewrite N.pow_add_r.
    assert (0 < 256 ^ 71) by (apply N.neq_0_lt_0, N.pow_nonzero; discriminate). revert D H. generalize (256 ^ 71) (256 ^ 34). clear. intros. nia. }
  destruct (cube_root_ok 280 0 x) as [Lo Hi]; [apply N.le_0_l|exact X|].
  set (c := cube_root 280 0 x) in *.
  assert (C : c < 256 ^ 35).
  { apply N.nle_gt. intros C. apply (N.pow_le_mono_l _ _ 3) in C. apply (N.lt_irrefl x). eapply N.lt_le_trans; [exact X|]. eapply N.le_trans; eassumption. }
  assert (Q : (c + 1) ^ 3 = c ^ 3 + 3 * c * c + 3 * c + 1).
  { change 3 with (N.succ (N.succ (N.succ 0))) at 1 2. rewrite !N.pow_succ_r', !N.pow_0_r. lia. }
  assert (S3 : 3 * c * c + 3 * c + 1 <= 256 ^ 71).
  { change (256 ^ 71) with (256 * (256 ^ 35 * 256 ^ 35)). revert C. generalize (256 ^ 35). clear. intros w C. nia. }
  assert (P1 : 0 < 256 ^ 71) by (apply N.neq_0_lt_0, N.pow_nonzero; discriminate).
  exists (c ^ 3 - d * 256 ^ 71). unfold x in Lo, Hi. clearbody c. clear - Lo Hi Q S3 C P1. rewrite Q in Hi. revert Lo Hi S3 P1.
  generalize (256 ^ 71) (c ^ 3). intros w v Lo Hi S3 P1. set (u := d * w) in *. clearbody u. clear Q. revert Hi S3. generalize (3 * c * c). intros y Hi S3.
  split; [|split; [|exact C]]; lia.
Qed.

Lemma verify_one k b out body : length b = nlen k -> (0 < nlen k)%nat -> public_decrypt k [] b = Some (out, Some body) ->
  verify_loop (nlen k) k b = Some (out, Some body).
Proof.
  intros L H E. destruct (nlen k) as [|j] eqn:J; [lia|]. destruct b as [|b0 b]; [discriminate|]. cbn [verify_loop].
  rewrite J, <- L, firstn_all, skipn_all, E. cbn [obind fst snd]. rewrite verify_loop_nil. cbn [obind fst snd option_map]. rewrite !app_nil_r. reflexivity.
Qed.

Theorem forge_accepted pub n m : operates pub n 3 -> (112 <= nlen pub)%nat -> bytes m ->
  exists s', verify pub m (forge (nlen pub) m) = Some (s', true).
Proof.
  intros G L Bm. pose proof (op_len _ _ _ G) as NB.
  set (D := be_value (digest_info MD5 m)).
  assert (DB : D < 256 ^ 34). { pose proof (be_value_bound _ (digest_info_bytes MD5 m)) as H. rewrite digest_info_len in H. exact H. }
  destruct (forge_cube D DB) as (r & R & C3 & C). unfold forge. fold D. set (c := cube_root 280 0 _) in *. clearbody c.
  assert (Ls : length (be_bytes (nlen pub) c) = nlen pub) by apply be_bytes_length.
  assert (Bs : bytes (be_bytes (nlen pub) c)) by apply be_bytes_bytes.
  assert (Vs : be_value (be_bytes (nlen pub) c) = c).
  { rewrite be_value_bytes. apply N.mod_small. eapply N.lt_le_trans; [exact C|]. apply N.pow_le_mono_r; [discriminate|clear - L; lia]. }
  destruct (op_crypt _ _ _ G _ Bs Ls) as (out & E & Lo & Bo & Vo).
  assert (Hn : 256 ^ 105 <= n).
  { destruct (op_lo _ _ _ G) as [M _]. unfold nlen in L. eapply N.le_trans; [|exact M].
    eapply N.le_trans; [|apply (P_mono 27); clear - L; lia].  apply N.leb_le. vm_compute. reflexivity. }
  assert (Vo' : be_value out = D * 256 ^ 71 + r).
  { rewrite Vo, Vs, C3. apply N.mod_small. eapply N.lt_le_trans; [|exact Hn]. change (256 ^ 105) with (256 ^ 34 * 256 ^ 71).
    revert DB R. generalize (256 ^ 34) (256 ^ 71). clear. intros. nia. }
  set (body := digest_info MD5 m ++ be_bytes 71 r).
  assert (Eo : out = [0; 0] ++ repeat 0 (nlen pub - 107) ++ body).
  { apply be_value_inj.
    - unfold body. rewrite !app_length, repeat_length, digest_info_len, be_bytes_length. cbn [length]. clear - L Lo; lia.
    - exact Bo.
    - apply Forall_app; split; [repeat constructor|]. apply Forall_app; split; [|apply Forall_app; split; [apply digest_info_bytes|apply be_bytes_bytes]].
      apply Forall_forall; intros y Hy; apply repeat_spec in Hy; subst; reflexivity.
    - rewrite Vo'. rewrite !be_value_app, be_value_repeat0. change (be_value [0; 0]) with 0. rewrite !N.mul_0_l, !N.add_0_l.
      unfold body. rewrite be_value_app, be_value_bytes, be_bytes_length. fold D. change (N.of_nat 71) with 71. rewrite (N.mod_small r) by exact R. reflexivity. }
  assert (A : anti_padding_private out [] = Some (Some body)).
  { rewrite Eo. unfold anti_padding_private. cbn [app N.eqb negb].
    assert (Eb : exists b, body = 48 :: b) by (unfold body, digest_info; cbn [app]; eexists; reflexivity). destruct Eb as [b Eb].
    rewrite Eb. rewrite scan_stop; [reflexivity|intros y Hy; apply repeat_spec in Hy; subst; reflexivity|reflexivity]. }
  unfold verify. rewrite (proj2 (Nat.eqb_neq _ _)) by (clear - L; lia). rewrite Ls, Nat.mod_same by (clear - L; lia). cbn [Nat.eqb negb].
  destruct (be_bytes (nlen pub) c) as [|s0 s] eqn:Es; [cbn [length] in Ls; clear - L Ls; lia|]. rewrite <- Es in *.
  assert (V : verify_loop (nlen pub) pub (be_bytes (nlen pub) c) = Some (out, Some body)).
  { apply verify_one; [exact Ls|clear - L; lia|]. apply decrypt_one; [exact Ls|clear - L; lia|exact E|exact A]. }
  rewrite V. cbn [obind fst snd]. unfold body. rewrite emsa_decode_ok. cbn [obind]. rewrite hash_text_ok by exact Bm. cbn [obind].
  rewrite (proj2 (same_true _ _)) by reflexivity. eexists. reflexivity.
Qed.
