Require Import List Arith NArith ZArith Lia Bool Znumtheory.
Require Import ZifyBool ZifyNat ZifyN.
Require Import Verif.Base Verif.EndianSpec Verif.EndianProofs Verif.BnModel Verif.BnSpec Verif.BnLimbProofs Verif.BnAddProofs
  Verif.BnTextModel Verif.BnTextProofs Verif.BnStringProofs Verif.BnModModel Verif.BnLooseProofs Verif.BnPrimeModel
  Verif.RsaModel Verif.RsaSpec Verif.RsaProofs.
Import ListNotations.
Open Scope N_scope.

Lemma os2ip_wfl s l : bytes s -> length s = (4 * l)%nat -> (l <= 257)%nat ->
  exists b, bn_os2ip s = Some (Some b) /\ wfl b /\ neg b = false /\ len b = l /\ mag b = be_value s.
Proof.
  intros B L M. destruct (os2ip_spec s B ltac:(lia)) as (b & E & Ng & Mb & Lb & Sd & Ld & Bd).
  assert (Lb' : len b = l) by (rewrite Lb, L; clear; lia).
  exists b. split; [exact E|]. split; [|auto]. destruct b as [t n d]. cbn [len dat neg] in *. apply wfl_mk; auto. unfold SIZE. lia.
Qed.

Lemma i2osp_wfl b n : wfl b -> neg b = false -> (4 * len b <= n)%nat ->
  exists s, bn_i2osp b n = Some s /\ length s = n /\ bytes s /\ be_value s = mag b.
Proof.
  intros Hb Ng Hn. unfold bn_i2osp. rewrite Ng. cbn [orb]. rewrite (proj2 (Nat.ltb_ge _ _)) by lia.
  eexists. split; [reflexivity|].
  destruct (flat_limbs (firstn (len b) (dat b))) as (V & L & Bt); [apply limbs_firstn, wl_limbs; auto|].
  rewrite firstn_length_le in L by (rewrite (wl_size _ Hb); apply (wl_len _ Hb)).
  split; [rewrite app_length, repeat_length, L; lia|]. split.
  - unfold bytes. apply Forall_app. split; [|exact Bt]. apply Forall_forall. intros x Hx. apply repeat_spec in Hx. subst. unfold is_byte. lia.
  - rewrite be_value_app, be_value_repeat0, V, <- lmag_firstn by auto. lia.
Qed.

(** What one key needs for its power to be right. *)
Record good (k : key) (n x p q : N) : Prop := {
  gd_key : key_for k n x p q; gd_p : prime (Z.of_N p); gd_q : prime (Z.of_N q); gd_pq : p <> q; gd_n : n = p * q;
  gd_lp : 2 ^ 32 <= p; gd_lq : 2 ^ 32 <= q; gd_f : n < P 128; gd_x : 2 <= x;
  gd_xp : 2 <= x mod (p - 1); gd_xq : 2 <= x mod (q - 1) }.

Lemma crypt_ok k n x p q block : good k n x p q -> bytes block -> length block = nlen k ->
  exists out, crypt_block k block = Some (Some out) /\ length out = nlen k /\ bytes out /\ be_value out = be_value block ^ x mod n.
Proof.
  intros [Hk Pp Pq D En Gp Gq F X Xp Xq] B L. unfold crypt_block.
  destruct (key_n k n x p q Hk En Gp Gq F) as (Wn & Nn & Mn & Ln).
  destruct (os2ip_wfl block (len (k_n k)) B L) as (b & E & Wb & Nb & Lb & Mb); [clear - Ln; lia|]. rewrite E. cbn [obind].
  destruct (rsaep_ok k n x p q Hk Pp Pq D En Gp Gq F X Xp Xq b Wb Nb Lb) as (r & Er & Wr & Nr & Lr & Mr). rewrite Er. cbn [obind].
  destruct (i2osp_wfl r (nlen k) Wr Nr) as (s & Es & Ls & Bs & Vs); [unfold nlen; clear - Lr; lia|].
  exists s. rewrite Es. split; [reflexivity|]. split; [exact Ls|]. split; [exact Bs|]. rewrite Vs, Mr, Mb. reflexivity.
Qed.

Lemma len_eq a b : wfp a -> wfp b -> mag a = mag b -> len a = len b.
Proof.
  intros A B E. assert (H : forall c d, wfp c -> wfp d -> mag c = mag d -> (len c <= len d)%nat).
  { intros c d C D M. apply len_of_mag; [exact C|]. rewrite M. apply mag_lt; exact D. }
  apply Nat.le_antisymm; apply H; auto.
Qed.
Lemma nlen_eq k k' n x x' p q : key_for k n x p q -> key_for k' n x' p q -> nlen k = nlen k'.
Proof.
  intros K K'. destruct (holds_mag _ _ (kf_n _ _ _ _ _ K)) as (W & M). destruct (holds_mag _ _ (kf_n _ _ _ _ _ K')) as (W' & M').
  unfold nlen. rewrite (len_eq _ _ W W'); congruence.
Qed.

Lemma crypt_inverse k k' n e d p q block : pair n e d p q -> good k n e p q -> good k' n d p q ->
  bytes block -> length block = nlen k -> be_value block < n ->
  exists c, crypt_block k block = Some (Some c) /\ length c = nlen k /\ bytes c /\ be_value c = be_value block ^ e mod n /\
    crypt_block k' c = Some (Some block).
Proof.
  intros Pr G G' B L V. destruct (crypt_ok k n e p q block G B L) as (c & E & Lc & Bc & Vc).
  exists c. split; [exact E|]. split; [exact Lc|]. split; [exact Bc|]. split; [exact Vc|].
  assert (NL : nlen k = nlen k') by (apply (nlen_eq k k' n e d p q); [apply G|apply G']).
  destruct (crypt_ok k' n d p q c G' Bc ltac:(congruence)) as (o & E' & Lo & Bo & Vo). rewrite E'. do 2 f_equal.
  apply be_value_inj; auto; [congruence|]. rewrite Vo, Vc.
  apply (pair_inverse n e d p q); auto; [pose proof (gd_lp _ _ _ _ _ G) as H|pose proof (gd_lq _ _ _ _ _ G) as H]; clear - H; lia.
Qed.

Lemma keys_good pub pri n e d p q : keys pub pri n e d p q -> good pub n e p q /\ good pri n d p q.
Proof.
  intros [Pr Kp Ks Gp Gq F E2 Ep Eq]. destruct (pair_exponents n e d p q Pr E2 Ep Eq) as [D1 D2].
  assert (F' : n < P 128) by (rewrite P128; exact F). clear F.
  split; constructor; auto; try apply Pr.
  - rewrite N.mod_small by exact Ep. exact E2.
  - rewrite N.mod_small by exact Eq. exact E2.
  - assert (p - 1 <> 0) by (clear - Gp; lia). pose proof (N.mod_le d (p - 1) H). clear - D1 H0. lia.
Qed.

(** * Padding *)

Lemma scan_stop test l c r after : (forall x, In x l -> test x = true) -> test c = false -> scan test (l ++ c :: r) after = Some (c :: r).
Proof.
  intros H C. induction l as [|x l IH]; cbn [app scan]; [rewrite C; reflexivity|].
  rewrite (H x) by (left; reflexivity). apply IH. intros y Hy. apply H. right. exact Hy.
Qed.

Lemma anti_public ps m after : (forall x, In x ps -> x <> 0) -> m <> [] -> anti_padding_public (block2 ps m) after = Some (Some m).
Proof.
  intros H M. unfold block2, anti_padding_public. cbn [app N.eqb Pos.eqb negb].
  rewrite scan_stop; [|intros x Hx; specialize (H x Hx); destruct (N.eqb_spec x 0); [contradiction|reflexivity]|reflexivity].
  cbn [obind]. destruct m; [contradiction|reflexivity].
Qed.

Lemma anti_private k m after : m <> [] -> anti_padding_private (block1 k m) after = Some (Some m).
Proof.
  intros M. unfold block1, anti_padding_private. cbn [app N.eqb Pos.eqb negb].
  rewrite scan_stop; [|intros x Hx; apply repeat_spec in Hx; subst; reflexivity|reflexivity].
  cbn [obind]. destruct m; [contradiction|reflexivity].
Qed.

Lemma block_value a b rest : bytes rest -> a = 0 -> be_value (a :: b :: rest) < (b + 1) * 256 ^ N.of_nat (length rest).
Proof.
  intros B ->. cbn [be_value length]. pose proof (be_value_bound rest B). rewrite N.mul_add_distr_r. lia.
Qed.

Lemma pad_bytes_ok fuel : forall n (ds : list N), (length ds <= fuel)%nat ->
  (n <= nonzero_draws ds)%nat ->
  exists ps ds', pad_bytes fuel n ds = Some (ps, ds') /\ length ps = n /\ bytes ps /\ (forall x, In x ps -> x <> 0).
Proof.
  unfold nonzero_draws. induction fuel as [|f IH]; intros n ds Hf Hn.
  - destruct ds; [|cbn in Hf; lia]. cbn in Hn. destruct n; [|lia]. exists [], []. split; [reflexivity|]. split; [reflexivity|]. split; [constructor|intros x []].
  - destruct n as [|n].
    { exists [], ds. split; [reflexivity|]. split; [reflexivity|]. split; [constructor|intros x []]. }
    destruct ds as [|c ds]; [cbn in Hn; lia|]. cbn [length] in Hf. cbn [pad_bytes draw obind fst snd].
    cbn [filter] in Hn. destruct (N.eqb_spec (c mod 256) 0) as [Z|Z]; cbn [negb] in Hn.
    + apply IH; [lia|exact Hn].
    + destruct (IH n ds) as (ps & ds' & E & L & B & NZ); [lia|cbn [length] in Hn; lia|]. rewrite E. cbn [obind fst snd].
      exists (c mod 256 :: ps), ds'. split; [reflexivity|]. split; [cbn [length]; lia|].
      split; [constructor; [apply N.mod_lt; discriminate|exact B]|]. intros x [<-|Hx]; [exact Z|apply NZ; exact Hx].
Qed.
Lemma pad_bytes_sound fuel : forall n ds ps ds', pad_bytes fuel n ds = Some (ps, ds') ->
  length ps = n /\ bytes ps /\ (forall x, In x ps -> x <> 0).
Proof.
  assert (Z : length (@nil N) = 0%nat /\ bytes [] /\ (forall x : N, In x [] -> x <> 0)) by (split; [reflexivity|]; split; [constructor|intros x []]).
  induction fuel as [|f IH]; intros [|n] ds ps ds' E; cbn [pad_bytes] in E; try discriminate; try (injection E as <- <-; exact Z).
  destruct ds as [|c ds]; [discriminate|]. cbn [draw obind fst snd] in E. destruct (N.eqb_spec (c mod 256) 0) as [C|C]; [exact (IH _ _ _ _ E)|].
  destruct (pad_bytes f n ds) as [[ps1 ds1]|] eqn:E1; [|discriminate]. cbn [obind fst snd] in E. injection E as <- <-.
  destruct (IH _ _ _ _ E1) as (L & B & NZ). split; [cbn [length]; lia|]. split; [constructor; [apply N.mod_lt; discriminate|exact B]|].
  intros x [<-|Hx]; [exact C|apply NZ; exact Hx].
Qed.

(** * One block *)

Lemma room_ok k : (11 <= nlen k)%nat -> (nlen k <= 4096)%nat -> room k = N.of_nat (nlen k - 11).
Proof.
  intros A B. unfold room. replace (N.of_nat (nlen k) + 2 ^ 64 - 11) with (N.of_nat (nlen k - 11) + 1 * 2 ^ 64) by lia.
  rewrite N.mod_add by discriminate. apply N.mod_small. apply N.lt_le_trans with 4097; [lia|discriminate].
Qed.

Lemma nlen_bounds k n x p q : good k n x p q -> (12 <= nlen k <= 512)%nat.
Proof.
  intros [Hk Pp Pq D En Gp Gq F X Xp Xq].
  destruct (key_n k n x p q Hk En Gp Gq F) as (Wn & Nn & Mn & Ln). unfold nlen. split; [|lia].
  assert (L : (2 < len (k_n k))%nat); [|lia].
  destruct (Nat.lt_ge_cases 2 (len (k_n k))) as [G|G]; [exact G|exfalso].
  pose proof (mag_lt _ Wn) as M. pose proof (P_mono _ 2 G) as M2. rewrite Mn, En in M.
  change (P 2) with (2 ^ 32 * 2 ^ 32) in M2. pose proof (N.mul_le_mono _ _ _ _ Gp Gq). clear - M M2 H. lia.
Qed.

Lemma decrypt_one k anti behind c out m : length c = nlen k -> (12 <= nlen k)%nat ->
  crypt_block k c = Some (Some out) -> anti out behind = Some (Some m) ->
  decrypt k anti behind c = Some (out, Some m).
Proof.
  intros L G E A. unfold decrypt. rewrite (proj2 (Nat.ltb_ge _ _)) by lia. rewrite (proj2 (Nat.eqb_neq _ _)) by lia.
  rewrite L, Nat.mod_same by lia. cbn [Nat.eqb negb]. destruct c as [|c0 c]; [cbn [length] in L; lia|]. rewrite <- L. cbn [length decrypt_blocks].
  rewrite <- L in *. rewrite firstn_all, skipn_all. rewrite E. cbn [obind app]. rewrite A. cbn [obind].
  assert (R : forall j, decrypt_blocks j k anti behind [] = Some ([], Some [])) by (destruct j; reflexivity).
  rewrite R. cbn [obind fst snd option_map]. rewrite !app_nil_r. reflexivity.
Qed.

Lemma forall2_weaken {A B} (P Q : A -> B -> Prop) xs ys : (forall x y, P x y -> Q x y) -> Forall2 P xs ys -> Forall2 Q xs ys.
Proof. intros H F. induction F; constructor; auto. Qed.

Lemma decrypt_blocks_more k anti behind : (1 <= nlen k)%nat -> forall cs ms,
  Forall2 (fun c m => length c = nlen k /\ exists out, crypt_block k c = Some (Some out) /\ forall b, anti out b = Some (Some m)) cs ms ->
  forall j, (length cs <= j)%nat -> exists c', decrypt_blocks j k anti behind (concat cs) = Some (c', Some (concat ms)).
Proof.
  intros G cs ms F. induction F as [|c m cs ms (L & out & E & A) F IH]; intros j J.
  - exists []. destruct j; reflexivity.
  - destruct j as [|j]; [cbn [length] in J; lia|]. destruct (IH j) as [c' R]; [cbn [length] in J; lia|].
    exists (out ++ c'). cbn [concat]. destruct c as [|c0 c]; [cbn [length] in L; lia|]. cbn [app decrypt_blocks].
    change (c0 :: c ++ concat cs) with ((c0 :: c) ++ concat cs). rewrite <- L, firstn_app, firstn_all, Nat.sub_diag, skipn_app, skipn_all, Nat.sub_diag.
    cbn [firstn skipn app]. rewrite app_nil_r, E. cbn [obind]. rewrite A. cbn [obind]. rewrite R. reflexivity.
Qed.

Lemma concat_blocks (j : nat) (P : list N -> list N -> Prop) cs ms : Forall2 (fun c m => length c = j /\ P c m) cs ms -> length (concat cs) = (length cs * j)%nat.
Proof.
  intros F. induction F as [|c m cs ms [L _] F IH]; [reflexivity|]. cbn [concat length]. rewrite app_length, L, IH. reflexivity.
Qed.

Lemma decrypt_more k anti behind cs ms : (12 <= nlen k)%nat -> cs <> [] ->
  Forall2 (fun c m => length c = nlen k /\ exists out, crypt_block k c = Some (Some out) /\ forall b, anti out b = Some (Some m)) cs ms ->
  exists c', decrypt k anti behind (concat cs) = Some (c', Some (concat ms)).
Proof.
  intros G C F. pose proof (concat_blocks _ _ _ _ F) as L. assert (1 <= length cs)%nat by (destruct cs; [contradiction|cbn [length]; lia]).
  unfold decrypt. rewrite L. rewrite (proj2 (Nat.ltb_ge _ _)) by nia. rewrite (proj2 (Nat.eqb_neq _ _)) by lia.
  rewrite Nat.mod_mul by lia. cbn [Nat.eqb negb]. apply decrypt_blocks_more; auto; nia.
Qed.

Lemma public_encrypt_ok pub pri n e d p q m ds : keys pub pri n e d p q ->
  3 * 256 ^ N.of_nat (nlen pub - 2) <= n -> bytes m -> m <> [] -> (length m + 11 <= nlen pub)%nat ->
  (nlen pub - length m - 3 <= nonzero_draws ds)%nat ->
  exists ps c ds', public_encrypt pub ds m = Some (Some c, ds') /\ length c = nlen pub /\ bytes c /\
    (length ps = nlen pub - length m - 3 /\ 8 <= length ps)%nat /\ bytes ps /\ (forall x, In x ps -> x <> 0) /\
    be_value c = be_value (block2 ps m) ^ e mod n /\ crypt_block pri c = Some (Some (block2 ps m)).
Proof.
  intros K T B M L D. destruct (keys_good _ _ _ _ _ _ _ K) as [G G']. pose proof (nlen_bounds _ _ _ _ _ G) as NB.
  unfold public_encrypt. rewrite room_ok by lia. rewrite (proj2 (N.ltb_ge _ _)) by lia.
  destruct m as [|m0 m]; [contradiction|]. set (mm := m0 :: m) in *.
  unfold pub_padding. rewrite (proj2 (Nat.ltb_ge _ _)) by lia.
  destruct (pad_bytes_ok (length ds) (nlen pub - length mm - 3) ds (le_n _) D) as (ps & ds' & E & Lp & Bp & NZ).
  rewrite E. cbn [obind fst snd]. change ([0; 2] ++ ps ++ [0] ++ mm) with (block2 ps mm).
  assert (BB : bytes (block2 ps mm)).
  { unfold block2, bytes. repeat (apply Forall_app; split); auto; repeat constructor. }
  assert (LB : length (block2 ps mm) = nlen pub) by (unfold block2; rewrite !app_length; cbn [length]; lia).
  assert (VB : be_value (block2 ps mm) < n).
  { eapply N.lt_le_trans; [|exact T]. change (block2 ps mm) with (0 :: 2 :: ps ++ [0] ++ mm).
    replace (nlen pub - 2)%nat with (length (ps ++ [0] ++ mm)) by (rewrite !app_length; cbn [length]; lia).
    apply block_value; [|reflexivity]. unfold bytes. repeat (apply Forall_app; split); auto; repeat constructor. }
  destruct (crypt_inverse pub pri n e d p q _ (ks_pair _ _ _ _ _ _ _ K) G G' BB LB VB) as (c & E1 & Lc & Bc & Vc & E2).
  rewrite E1. cbn [obind]. exists ps, c, ds'. split; [reflexivity|]. split; [exact Lc|]. split; [exact Bc|].
  split; [lia|]. split; [exact Bp|]. split; [exact NZ|]. split; [exact Vc|exact E2].
Qed.

Lemma public_round_trip pub pri n e d p q m ds behind : keys pub pri n e d p q ->
  3 * 256 ^ N.of_nat (nlen pub - 2) <= n -> bytes m -> m <> [] -> (length m + 11 <= nlen pub)%nat ->
  (nlen pub - length m - 3 <= nonzero_draws ds)%nat ->
  exists c ds' c', public_encrypt pub ds m = Some (Some c, ds') /\ length c = nlen pub /\ bytes c /\
    private_decrypt pri behind c = Some (c', Some m).
Proof.
  intros K T B M L D. destruct (keys_good _ _ _ _ _ _ _ K) as [G G'].
  destruct (public_encrypt_ok pub pri n e d p q m ds K T B M L D) as (ps & c & ds' & E & Lc & Bc & _ & _ & NZ & _ & E2).
  assert (NL : nlen pub = nlen pri) by (apply (nlen_eq pub pri n e d p q); [apply G|apply G']).
  exists c, ds', (block2 ps m). split; [exact E|]. split; [exact Lc|]. split; [exact Bc|].
  pose proof (nlen_bounds _ _ _ _ _ G'). apply decrypt_one; auto; [congruence|lia|]. apply anti_public; auto.
Qed.

Lemma private_encrypt_ok k k' n x x' p q m : pair n x x' p q -> good k n x p q -> good k' n x' p q ->
  2 * 256 ^ N.of_nat (nlen k - 2) <= n -> bytes m -> m <> [] -> (length m + 11 <= nlen k)%nat ->
  exists c, private_encrypt k m = Some (Some c) /\ length c = nlen k /\ bytes c /\
    be_value c = be_value (block1 (nlen k) m) ^ x mod n /\ crypt_block k' c = Some (Some (block1 (nlen k) m)).
Proof.
  intros Pr G G' T B M L. pose proof (nlen_bounds _ _ _ _ _ G) as NB.
  unfold private_encrypt. rewrite room_ok by lia. rewrite (proj2 (N.ltb_ge _ _)) by lia.
  destruct m as [|m0 m]; [contradiction|]. set (mm := m0 :: m) in *.
  unfold pri_padding. rewrite (proj2 (Nat.ltb_ge _ _)) by lia. cbn [obind].
  replace (nlen k - length mm - 3)%nat with (nlen k - 3 - length mm)%nat by lia.
  change ([0; 1] ++ repeat 255 (nlen k - 3 - length mm) ++ [0] ++ mm) with (block1 (nlen k) mm).
  assert (BR : bytes (repeat 255 (nlen k - 3 - length mm))) by (apply Forall_forall; intros y Hy; apply repeat_spec in Hy; subst; reflexivity).
  assert (BB : bytes (block1 (nlen k) mm)).
  { unfold block1, bytes. repeat (apply Forall_app; split); auto; repeat constructor. }
  assert (LB : length (block1 (nlen k) mm) = nlen k) by (unfold block1; rewrite !app_length, repeat_length; cbn [length]; lia).
  assert (VB : be_value (block1 (nlen k) mm) < n).
  { eapply N.lt_le_trans; [|exact T]. change (block1 (nlen k) mm) with (0 :: 1 :: repeat 255 (nlen k - 3 - length mm) ++ [0] ++ mm).
    replace (nlen k - 2)%nat with (length (repeat 255 (nlen k - 3 - length mm) ++ [0] ++ mm)) by (rewrite !app_length, repeat_length; cbn [length]; lia).
    apply block_value; [|reflexivity]. unfold bytes. repeat (apply Forall_app; split); auto; repeat constructor. }
  destruct (crypt_inverse k k' n x x' p q _ Pr G G' BB LB VB) as (c & E1 & Lc & Bc & Vc & E2).
  rewrite E1. exists c. auto 10.
Qed.

Lemma private_round_trip pub pri n e d p q m behind : keys pub pri n e d p q ->
  2 * 256 ^ N.of_nat (nlen pri - 2) <= n -> bytes m -> m <> [] -> (length m + 11 <= nlen pri)%nat ->
  exists c c', private_encrypt pri m = Some (Some c) /\ length c = nlen pri /\ bytes c /\
    public_decrypt pub behind c = Some (c', Some m).
Proof.
  intros K T B M L. destruct (keys_good _ _ _ _ _ _ _ K) as [G G'].
  destruct (private_encrypt_ok pri pub n d e p q m (pair_sym _ _ _ _ _ (ks_pair _ _ _ _ _ _ _ K)) G' G T B M L) as (c & E & Lc & Bc & _ & E2).
  assert (NL : nlen pub = nlen pri) by (apply (nlen_eq pub pri n e d p q); [apply G|apply G']).
  exists c, (block1 (nlen pri) m). split; [exact E|]. split; [exact Lc|]. split; [exact Bc|].
  pose proof (nlen_bounds _ _ _ _ _ G). apply decrypt_one; auto; [congruence|lia|]. apply anti_private; auto.
Qed.

(** ** Keys whose power is right, however they were made *)
Record operates (k : key) (n x : N) : Prop := {
  op_len : (12 <= nlen k <= 512)%nat;
  op_lo : P (len (k_n k) - 1) <= n < P (len (k_n k));
  op_crypt : forall block, bytes block -> length block = nlen k ->
    exists out, crypt_block k block = Some (Some out) /\ length out = nlen k /\ bytes out /\ be_value out = be_value block ^ x mod n }.

Lemma good_operates k n x p q : good k n x p q -> operates k n x.
Proof.
  intros G. constructor.
  - apply (nlen_bounds _ _ _ _ _ G).
  - pose proof (nlen_bounds _ _ _ _ _ G) as NB. unfold nlen in NB. destruct G as [Hk Pp Pq D En Gp Gq F X Xp Xq].
    destruct (key_n k n x p q Hk En Gp Gq F) as (Wn & Nn & Mn & Ln). rewrite <- Mn. split; [apply mag_ge; [exact Wn|clear - NB; lia]|apply mag_lt; exact Wn].
  - intros block. apply (crypt_ok _ _ _ _ _ block G).
Qed.

Lemma public_operates k n x : public_key k n x -> operates k n x.
Proof.
  intros [F Hn Hx [S1 S2] X2].
  destruct (holds_pos _ _ Hn) as (Wn & Nn & Mn); [clear - S1; lia|]. destruct (holds_pos _ _ Hx) as (We & Ne & Me); [clear - X2; lia|].
  assert (Ln : (len (k_n k) <= 128)%nat) by (apply len_of_mag; [exact Wn|rewrite Mn, P128; exact S2]).
  assert (Lo : (3 <= len (k_n k))%nat).
  { destruct (Nat.le_gt_cases 3 (len (k_n k))) as [L|L]; [exact L|exfalso]. pose proof (mag_lt _ Wn) as M. assert (M2 : P (len (k_n k)) <= P 2) by (apply P_mono; clear - L; lia).
    change (P 2) with (2 ^ 64) in M2. rewrite Mn in M. clear - M M2 S1. lia. }
  constructor.
  - unfold nlen. clear - Ln Lo. lia.
  - rewrite <- Mn. split; [apply mag_ge; [exact Wn|clear - Lo; lia]|apply mag_lt; exact Wn].
  - intros block B L. unfold crypt_block. destruct (os2ip_wfl block (len (k_n k)) B L) as (b & E & Wb & Nb & Lb & Mb); [clear - Ln; lia|]. rewrite E. cbn [obind].
    unfold rsaep_rsadp. rewrite F. cbn [obind Z.leb Z.compare].
    destruct (lpwr b (k_ed k) (k_n k)) as (r & Er & Wr & Nr & Mr & R1 & R2 & _); auto; try (unfold SIZE; clear - Lb Ln; lia); try (clear - Mn S1; lia).
    rewrite Er. cbn [obind].
    destruct (i2osp_wfl r (nlen k) Wr Nr) as (s & Es & Ls & Bs & Vs). { unfold nlen. assert (len r <= len (k_n k))%nat by (apply R2; left; clear - Me X2; lia). clear - H. lia. }
    exists s. rewrite Es. split; [reflexivity|]. split; [exact Ls|]. split; [exact Bs|]. rewrite Vs, <- Mb, <- Mn, <- Me, <- Mr. symmetry. apply N.mod_small. apply R1. left. clear - Me X2; lia.
Qed.
