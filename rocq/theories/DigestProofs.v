(** * Message digests: the digest as a whole, and how it is given out *)

From Coq Require Import List Arith NArith Bool Lia ZifyBool ZifyNat ZifyN.
From Verif Require Import Base EndianSpec EndianProofs DigestModel DigestSpec DigestStream DigestBlocks.
Import ListNotations.
Local Open Scope N_scope.

(** ** Bytes of a number *)

Lemma byte_at_ok x i : N.land (N.shiftr x (8 * i)) 255 = x / 256 ^ i mod 256.
Proof.
  change 255 with (N.ones 8). rewrite N.land_ones, N.shiftr_div_pow2, N.pow_mul_r. reflexivity.
Qed.

Lemma word_le_ok x : word_le x = bytes_le 4 x.
Proof.
  unfold word_le, bytes_le. change [0; 8; 16; 24] with (map (fun i => 8 * N.of_nat i) (seq 0 4)).
  rewrite map_map. apply map_ext. intros i. apply byte_at_ok.
Qed.
Lemma word_be_ok x : word_be x = bytes_be 4 x.
Proof.
  unfold bytes_be. rewrite <- word_le_ok. reflexivity.
Qed.
Lemma length_le_ok x : length_le x = bytes_le 8 x.
Proof.
  unfold length_le, bytes_le. change [0; 8; 16; 24; 32; 40; 48; 56] with (map (fun i => 8 * N.of_nat i) (seq 0 8)).
  rewrite map_map. apply map_ext. intros i. apply byte_at_ok.
Qed.
Lemma length_be_ok x : length_be x = bytes_be 8 x.
Proof. unfold bytes_be. rewrite <- length_le_ok. reflexivity. Qed.

Lemma bytes_le_length k x : length (bytes_le k x) = k.
Proof. unfold bytes_le. now rewrite map_length, seq_length. Qed.
Lemma bytes_be_length k x : length (bytes_be k x) = k.
Proof. unfold bytes_be. rewrite rev_length. apply bytes_le_length. Qed.
Lemma bytes_le_bytes k x : bytes (bytes_le k x).
Proof.
  unfold bytes, bytes_le. apply Forall_forall. intros y Hy. apply in_map_iff in Hy. destruct Hy as (i & <- & _).
  unfold is_byte. apply N.mod_lt. discriminate.
Qed.
Lemma bytes_be_bytes k x : bytes (bytes_be k x).
Proof. unfold bytes_be, bytes. apply Forall_rev. apply bytes_le_bytes. Qed.

Lemma bytes_le_mod x : bytes_le 8 (x mod two64) = bytes_le 8 x.
Proof.
  unfold bytes_le. apply map_ext_in. intros i Hi. apply in_seq in Hi. rewrite <- !byte_at_ok.
  change two64 with (2 ^ 64). change 255 with (N.ones 8). apply N.bits_inj. intros m. rewrite !N.land_spec, !N.shiftr_spec'.
  destruct (N.lt_ge_cases m 8) as [C|C].
  - rewrite N.mod_pow2_bits_low by lia. reflexivity.
  - rewrite N.ones_spec_high by exact C. now rewrite !andb_false_r.
Qed.
Lemma bytes_be_mod x : bytes_be 8 (x mod two64) = bytes_be 8 x.
Proof. unfold bytes_be. now rewrite bytes_le_mod. Qed.

(** ** The state after the last piece *)

Lemma fold_blocks (A B : Type) (f : A -> B) (P : A -> Prop) (g : A -> list N -> A) (g' : B -> list N -> B) :
  (forall h b, P h -> length b = 64%nat -> bytes b -> f (g h b) = g' (f h) b /\ P (g h b)) ->
  forall m q h, P h -> length m = (64 * q)%nat -> bytes m ->
  f (fold_left g (pieces 64 m) h) = fold_left g' (pieces 64 m) (f h) /\ P (fold_left g (pieces 64 m) h).
Proof.
  intros E m q h Ph L Bm. pose proof (pieces_blocks 64 q ltac:(lia) m L Bm) as F.
  revert h Ph. induction F as [|b l [Lb Bb] F IH]; intros h Ph; [auto|]. cbn [fold_left].
  destruct (E h b Ph Lb Bb) as [E1 E2]. rewrite <- E1. apply IH. exact E2.
Qed.

Lemma final (A B : Type) (f : A -> B) (P : A -> Prop) (g : A -> list N -> A) (g' : B -> list N -> B) (lb : N -> list N) :
  (forall h b, P h -> length b = 64%nat -> bytes b -> f (g h b) = g' (f h) b /\ P (g h b)) ->
  (forall x, length (lb x) = 8%nat) -> (forall x, bytes (lb x)) -> (forall x, lb (x mod two64) = lb x) ->
  forall h0 buf ps last, P h0 -> length buf = 64%nat -> Forall bytes ps -> bytes last ->
  let m := concat ps ++ last in
  exists c, calc_all A g lb (mkC A h0 0 0 buf) ps last = Some c /\
    f (c_h A c) = fold_left g' (pieces 64 (pad (lb (bits m)) m)) (f h0) /\ P (c_h A c).
Proof.
  intros E L8 B8 M h0 buf ps last Ph Lb Bp Bl m.
  destruct (init_fed A g h0 buf Lb) as [F C].
  destruct (calc_all_ok A g lb L8 h0 last ps _ [] F C) as (c & E1 & E2).
  exists c. split; [exact E1|]. rewrite E2. cbn [app]. fold m. rewrite M. unfold absorb.
  destruct (pad_length (lb (bits m)) m (L8 _)) as [q LQ].
  apply (fold_blocks A B f P g g' E _ q h0 Ph LQ).
  apply pad_bytes; [apply B8|]. unfold m. apply Forall_app. split; [|exact Bl]. apply Forall_concat. exact Bp.
Qed.

Definition out_md5 (v : md5_regs) : list N := let '(A, B, C, D) := v in flat_map (bytes_le 4) [A; B; C; D].
Definition out_sha1 (v : sha1_regs) : list N := let '(A, B, C, D, E) := v in flat_map (bytes_be 4) [A; B; C; D; E].
Definition out_sha256 (v : sha256_regs) : list N :=
  flat_map (bytes_be 4) [h0 v; h1 v; h2 v; h3 v; h4 v; h5 v; h6 v; h7 v].

Lemma length_le_8 x : length (length_le x) = 8%nat.
Proof. reflexivity. Qed.
Lemma length_be_8 x : length (length_be x) = 8%nat.
Proof. reflexivity. Qed.
Lemma length_le_bytes x : bytes (length_le x).
Proof. rewrite length_le_ok. apply bytes_le_bytes. Qed.
Lemma length_be_bytes x : bytes (length_be x).
Proof. rewrite length_be_ok. apply bytes_be_bytes. Qed.
Lemma length_le_mod x : length_le (x mod two64) = length_le x.
Proof. rewrite !length_le_ok. apply bytes_le_mod. Qed.
Lemma length_be_mod x : length_be (x mod two64) = length_be x.
Proof. rewrite !length_be_ok. apply bytes_be_mod. Qed.

Lemma md5_final buf ps last : length buf = 64%nat -> Forall bytes ps -> bytes last ->
  exists c, calc_all md5_regs md5_calc_block length_le (md5_init buf) ps last = Some c /\
    out_md5 (c_h _ c) = md5 (concat ps ++ last).
Proof.
  intros Lb Bp Bl.
  destruct (final md5_regs md5_regs (fun v => v) words4 md5_calc_block md5_compress length_le
              md5_block_ok length_le_8 length_le_bytes length_le_mod
              (1732584193, 4023233417, 2562383102, 271733878) buf ps last) as (c & E1 & E2 & _); auto.
  { cbv. auto. }
  exists c. split; [exact E1|]. unfold md5. rewrite <- length_le_ok.
  change (0x67452301, 0xefcdab89, 0x98badcfe, 0x10325476) with (1732584193, 4023233417, 2562383102, 271733878).
  rewrite E2. reflexivity.
Qed.

Lemma sha1_final buf ps last : length buf = 64%nat -> Forall bytes ps -> bytes last ->
  exists c, calc_all sha1_regs sha1_calc_block length_be (sha1_init buf) ps last = Some c /\
    out_sha1 (c_h _ c) = sha1 (concat ps ++ last).
Proof.
  intros Lb Bp Bl.
  destruct (final sha1_regs sha1_regs (fun v => v) words5 sha1_calc_block sha1_compress length_be
              sha1_block_ok length_be_8 length_be_bytes length_be_mod
              (1732584193, 4023233417, 2562383102, 271733878, 3285377520) buf ps last) as (c & E1 & E2 & _); auto.
  { cbv. auto 10. }
  exists c. split; [exact E1|]. unfold sha1. rewrite <- length_be_ok.
  change (0x67452301, 0xefcdab89, 0x98badcfe, 0x10325476, 0xc3d2e1f0) with (1732584193, 4023233417, 2562383102, 271733878, 3285377520).
  rewrite E2. reflexivity.
Qed.

Lemma sha256_H_ok : (sha256_H 0, sha256_H 1, sha256_H 2, sha256_H 3, (sha256_H 4, sha256_H 5, sha256_H 6, sha256_H 7)) =
  tuple (mkR 1779033703 3144134277 1013904242 2773480762 1359893119 2600822924 528734635 1541459225).
Proof. vm_compute. reflexivity. Qed.

Lemma sha256_final buf ps last : length buf = 64%nat -> Forall bytes ps -> bytes last ->
  exists c, calc_all sha256_regs sha256_calc_block length_be (sha256_init buf) ps last = Some c /\
    out_sha256 (c_h _ c) = sha256 (concat ps ++ last).
Proof.
  intros Lb Bp Bl.
  destruct (final sha256_regs eight tuple words8 sha256_calc_block sha256_compress length_be
              sha256_block_ok length_be_8 length_be_bytes length_be_mod
              (mkR 1779033703 3144134277 1013904242 2773480762 1359893119 2600822924 528734635 1541459225)
              buf ps last) as (c & E1 & E2 & _); auto.
  { cbv. auto 10. }
  exists c. split; [exact E1|]. unfold sha256. rewrite <- length_be_ok, sha256_H_ok.
  rewrite <- E2. reflexivity.
Qed.

(** ** Giving the bytes out *)

Lemma write_ok bs : forall i len pre out, length pre = i -> (i < len)%nat -> bs <> [] ->
  (nth (len - 1 - i) (map snd bs) true = true \/ (i + length bs <= len)%nat) ->
  (Nat.min (len - i) (length bs) <= length out)%nat ->
  write_bytes bs i len (pre ++ out) = Some (pre ++ firstn (len - i) (map fst bs) ++ skipn (Nat.min (len - i) (length bs)) out).
Proof.
  induction bs as [|[b t] bs IH]; intros i len pre out Li Hi Ne Ht Lo; [congruence|].
  cbn [write_bytes]. cbn [length map fst snd] in *. destruct out as [|o out]; [cbn [length] in Lo; lia|].
  rewrite store_ok by (rewrite app_length; cbn [length]; lia). cbn [obind]. rewrite (upd_at _ _ _ _ _ Li).
  destruct (len - i)%nat as [|k] eqn:K; [lia|]. cbn [firstn Nat.min skipn app].
  destruct (Nat.leb_spec len (S i)) as [C|C].
  - assert (k = 0%nat) by lia. subst k. cbn [firstn Nat.min skipn app]. destruct t; [reflexivity|].
    destruct Ht as [Ht|Ht].
    + replace (len - 1 - i)%nat with 0%nat in Ht by lia. cbn [nth] in Ht. discriminate.
    + destruct bs; [reflexivity|]. cbn [length] in Ht. lia.
  - rewrite andb_false_r. destruct bs as [|p bs].
    + cbn [write_bytes map length firstn]. rewrite firstn_nil. rewrite Nat.min_0_r. reflexivity.
    + change (pre ++ b :: out) with (pre ++ [b] ++ out). rewrite app_assoc.
      rewrite (IH (S i) len); [| |exact C|discriminate| |].
      * replace (len - S i)%nat with k by lia. rewrite <- app_assoc. reflexivity.
      * rewrite app_length. cbn [length]. lia.
      * replace (len - 1 - S i)%nat with (len - 1 - i - 1)%nat by lia.
        destruct Ht as [Ht|Ht]; [|right; lia]. destruct (len - 1 - i)%nat as [|j] eqn:J; [lia|]. cbn [nth] in Ht.
        left. replace (S j - 1)%nat with j by lia. exact Ht.
      * cbn [length] in *. lia.
Qed.

Lemma write_overflow bs : forall i len pre out, length pre = i -> (i < len)%nat ->
  nth (len - 1 - i) (map snd bs) true = false -> (len < i + length bs)%nat -> length out = (len - i)%nat ->
  write_bytes bs i len (pre ++ out) = None.
Proof.
  induction bs as [|[b t] bs IH]; intros i len pre out Li Hi Ht Hb Lo; [cbn [length] in Hb; lia|].
  cbn [write_bytes]. cbn [length map fst snd] in *. destruct out as [|o out]; [cbn [length] in Lo; lia|].
  rewrite store_ok by (rewrite app_length; cbn [length]; lia). cbn [obind]. rewrite (upd_at _ _ _ _ _ Li).
  cbn [length] in Lo. change (pre ++ b :: out) with (pre ++ [b] ++ out). rewrite app_assoc.
  destruct (Nat.leb_spec len (S i)) as [C|C].
  - replace (len - 1 - i)%nat with 0%nat in Ht by lia. cbn [nth] in Ht. subst t. cbn [andb].
    destruct bs as [|[b' t'] bs]; [cbn [length] in Hb; lia|]. cbn [write_bytes].
    destruct out; [|cbn [length] in Lo; lia]. rewrite app_nil_r. unfold store.
    replace (S i <? length (pre ++ [b]))%nat with false; [reflexivity|].
    symmetry. apply Nat.ltb_ge. rewrite app_length. cbn [length]. lia.
  - rewrite andb_false_r. apply (IH (S i) len); [|exact C| |lia|lia].
    + rewrite app_length. cbn [length]. lia.
    + destruct (len - 1 - i)%nat as [|j] eqn:J; [lia|]. cbn [nth] in Ht. replace (len - 1 - S i)%nat with j by lia. exact Ht.
Qed.

Lemma write_put bs out len d : map fst bs = d -> (Nat.min len (length d) <= length out)%nat -> (0 < len)%nat -> d <> [] ->
  (nth (len - 1) (map snd bs) true = true \/ (length d <= len)%nat) ->
  write_bytes bs 0 len out = Some (put out d len).
Proof.
  intros Hd Lo Hl Hne Ht.
  assert (Hb : length bs = length d) by (rewrite <- Hd; now rewrite map_length).
  pose proof (write_ok bs 0 len [] out eq_refl Hl) as W. cbn [app] in W.
  rewrite !Nat.sub_0_r in W. rewrite W.
  - unfold put. now rewrite Hd, Hb.
  - intros ->. apply Hne. now rewrite <- Hd.
  - rewrite Hb. exact Ht.
  - now rewrite Hb.
Qed.

Lemma tested_fst l : map fst (tested l) = l.
Proof. unfold tested. rewrite map_map. cbn. apply map_id. Qed.
Lemma untested_fst l : map fst (untested l) = l.
Proof.
  unfold untested. rewrite map_app, !map_map. cbn [fst]. rewrite !map_id. apply firstn_skipn.
Qed.

Lemma put_0 out d : put out d 0 = out.
Proof. reflexivity. Qed.

Lemma md5_out_length v : length (out_md5 v) = 16%nat.
Proof. destruct v as [[[a b] c] d]. reflexivity. Qed.
Lemma sha1_out_length v : length (out_sha1 v) = 20%nat.
Proof. destruct v as [[[[a b] c] d] e]. reflexivity. Qed.
Lemma sha256_out_length v : length (out_sha256 v) = 32%nat.
Proof. reflexivity. Qed.


Lemma md5_tobytes_ok c out len : (Nat.min len 16 <= length out)%nat ->
  md5_tobytes c out len = Some (put out (out_md5 (c_h _ c)) len).
Proof.
  intros Lo. unfold md5_tobytes. destruct (Nat.eqb_spec len 0) as [->|ne]; [now rewrite put_0|].
  destruct (c_h _ c) as [[[A B] C] D]. apply write_put.
  - rewrite map_app, tested_fst, untested_fst, !word_le_ok. cbn [out_md5 flat_map]. now rewrite app_nil_r, <- !app_assoc.
  - rewrite md5_out_length. exact Lo.
  - lia.
  - discriminate.
  - rewrite md5_out_length. destruct (Nat.le_gt_cases 16 len) as [C1|C1]; [now right|left].
    do 16 (destruct len as [|len]; [try lia; reflexivity|]). lia.
Qed.

Lemma sha1_tobytes_ok c out len : (Nat.min len 20 <= length out)%nat ->
  sha1_tobytes c out len = Some (put out (out_sha1 (c_h _ c)) len).
Proof.
  intros Lo. unfold sha1_tobytes. destruct (Nat.eqb_spec len 0) as [->|ne]; [now rewrite put_0|].
  destruct (c_h _ c) as [[[[A B] C] D] E]. apply write_put.
  - rewrite map_app, tested_fst, untested_fst, !word_be_ok. cbn [out_sha1 flat_map]. now rewrite app_nil_r, <- !app_assoc.
  - rewrite sha1_out_length. exact Lo.
  - lia.
  - discriminate.
  - rewrite sha1_out_length. destruct (Nat.le_gt_cases 20 len) as [C1|C1]; [now right|left].
    do 20 (destruct len as [|len]; [try lia; reflexivity|]). lia.
Qed.

Lemma sha256_tobytes_ok c out len : (Nat.min len 32 <= length out)%nat -> ~ In len [20; 24; 28]%nat ->
  sha256_tobytes c out len = Some (put out (out_sha256 (c_h _ c)) len).
Proof.
  intros Lo Ni. unfold sha256_tobytes. destruct (Nat.eqb_spec len 0) as [->|ne]; [now rewrite put_0|].
  apply write_put.
  - rewrite !map_app, tested_fst, !untested_fst, !word_be_ok. unfold out_sha256. cbn [flat_map]. now rewrite app_nil_r, <- !app_assoc.
  - rewrite sha256_out_length. exact Lo.
  - lia.
  - discriminate.
  - rewrite sha256_out_length. destruct (Nat.le_gt_cases 32 len) as [C1|C1]; [now right|left]. cbn [In] in Ni.
    do 32 (destruct len as [|len]; [try lia; reflexivity|]). lia.
Qed.

Lemma sha256_tobytes_overflow c out len : In len [20; 24; 28]%nat -> length out = len -> sha256_tobytes c out len = None.
Proof.
  intros Hi L. unfold sha256_tobytes. destruct (Nat.eqb_spec len 0) as [->|ne]; [cbn [In] in Hi; lia|].
  apply (write_overflow _ 0 len [] out eq_refl).
  - lia.
  - cbn [In] in Hi. destruct Hi as [<-|[<-|[<-|[]]]]; reflexivity.
  - cbn [In] in Hi. destruct Hi as [<-|[<-|[<-|[]]]]; cbn; lia.
  - lia.
Qed.

(** ** Giving it out in hexadecimal *)

Lemma hex_digit_ok : forall d, d < 16 -> hex_tostring d = hex_digit d.
Proof.
  intros d Hd. assert (D : exists n, (n < 16)%nat /\ d = N.of_nat n) by (exists (N.to_nat d); lia).
  destruct D as (n & Hn & ->). do 16 (destruct n as [|n]; [reflexivity|]). lia.
Qed.

Lemma write_hex_ok bs : forall i pre out, bytes bs -> length pre = i -> (2 * length bs + 1 <= length out)%nat ->
  write_hex bs i (pre ++ out) = Some (pre ++ hex bs ++ 0 :: skipn (2 * length bs + 1) out).
Proof.
  induction bs as [|b bs IH]; intros i pre out B Li Lo.
  - cbn [write_hex length Nat.mul Nat.add hex flat_map app] in *. destruct out as [|o out]; [cbn [length] in Lo; lia|].
    rewrite store_ok by (rewrite app_length; cbn [length]; lia). now rewrite (upd_at _ _ _ _ _ Li).
  - apply Forall_cons_iff in B. destruct B as [Bb B]. unfold is_byte in Bb. cbn [length] in Lo.
    destruct out as [|o out]; [cbn [length] in Lo; lia|]. destruct out as [|o' out]; [cbn [length] in Lo; lia|]. cbn [length] in Lo.
    cbn [write_hex]. rewrite store_ok by (rewrite app_length; cbn [length]; lia). cbn [obind]. rewrite (upd_at _ _ _ _ _ Li).
    set (x := hex_tostring _). set (y := hex_tostring _).
    assert (X : x = hex_digit (b / 16)).
    { unfold x. change 15 with (N.ones 4). rewrite N.land_ones, N.shiftr_div_pow2. change (2 ^ 4) with 16.
      assert (b / 16 < 16) by (apply N.div_lt_upper_bound; lia). rewrite N.mod_small by assumption. now apply hex_digit_ok. }
    assert (Y : y = hex_digit (b mod 16)).
    { unfold y. change 15 with (N.ones 4). rewrite N.land_ones. change (2 ^ 4) with 16. apply hex_digit_ok. apply N.mod_lt. discriminate. }
    clearbody x y. subst x y. set (x := hex_digit (b / 16)). set (y := hex_digit (b mod 16)).
    change (pre ++ x :: o' :: out) with (pre ++ [x] ++ o' :: out). rewrite app_assoc.
    assert (L2 : length (pre ++ [x]) = S i) by (rewrite app_length; cbn [length]; lia).
    rewrite store_ok by (rewrite app_length; cbn [length]; lia). cbn [obind]. rewrite (upd_at _ _ _ _ _ L2).
    change ((pre ++ [x]) ++ y :: out) with ((pre ++ [x]) ++ [y] ++ out). rewrite app_assoc.
    rewrite (IH (S (S i))); [|exact B| |lia].
    + rewrite <- !app_assoc. cbn [length]. replace (2 * S (length bs) + 1)%nat with (S (S (2 * length bs + 1))) by lia. reflexivity.
    + rewrite app_length. cbn [length]. lia.
Qed.

Lemma tostring_ok d size out len : length d = size -> bytes d -> (Nat.min len (2 * size + 1) <= length out)%nat ->
  tostring (Some d) size out len = Some (put_hex out d len).
Proof.
  intros Ld B Lo. unfold tostring, put_hex. destruct (Nat.eqb_spec len 0) as [->|ne]; [reflexivity|]. cbn [obind].
  assert (K : (if (2 * size <? len)%nat then size else (len - 1) / 2)%nat = Nat.min (length d) ((len - 1) / 2)).
  { pose proof (Nat.div_mod (len - 1) 2 ltac:(lia)). pose proof (Nat.mod_upper_bound (len - 1) 2 ltac:(lia)).
    destruct (Nat.ltb_spec (2 * size) len); lia. }
  rewrite K. set (k := Nat.min (length d) ((len - 1) / 2)) in *.
  assert (LF : length (firstn k d) = k) by (rewrite firstn_length; lia).
  pose proof (Nat.div_mod (len - 1) 2 ltac:(lia)).
  pose proof (write_hex_ok (firstn k d) 0 [] out) as W. cbn [app] in W. rewrite LF in W. apply W.
  - apply Forall_forall. intros x Hx. apply (proj1 (Forall_forall _ _) B). rewrite <- (firstn_skipn k d). apply in_or_app. now left.
  - reflexivity.
  - lia.
Qed.

Lemma put_full d n : length d = n -> put (repeat 0 n) d n = d.
Proof.
  intros <-. unfold put. rewrite firstn_all, Nat.min_id, skipn_all2 by (rewrite repeat_length; lia). apply app_nil_r.
Qed.

Lemma flat_map_bytes (f : N -> list N) l : (forall x, bytes (f x)) -> bytes (flat_map f l).
Proof. intros F. induction l as [|x l IH]; cbn [flat_map]; [constructor|]. apply Forall_app. split; [apply F|exact IH]. Qed.

Lemma md5_out_bytes v : bytes (out_md5 v).
Proof. destruct v as [[[a b] c] d]. apply flat_map_bytes. apply bytes_le_bytes. Qed.
Lemma sha1_out_bytes v : bytes (out_sha1 v).
Proof. destruct v as [[[[a b] c] d] e]. apply flat_map_bytes. apply bytes_be_bytes. Qed.
Lemma sha256_out_bytes v : bytes (out_sha256 v).
Proof. apply flat_map_bytes. apply bytes_be_bytes. Qed.

Lemma md5_tostring_ok c out len : (Nat.min len 33 <= length out)%nat ->
  md5_tostring c out len = Some (put_hex out (out_md5 (c_h _ c)) len).
Proof.
  intros Lo. unfold md5_tostring. rewrite md5_tobytes_ok by (rewrite repeat_length; lia).
  rewrite put_full by apply md5_out_length. apply tostring_ok; [apply md5_out_length|apply md5_out_bytes|exact Lo].
Qed.
Lemma sha1_tostring_ok c out len : (Nat.min len 41 <= length out)%nat ->
  sha1_tostring c out len = Some (put_hex out (out_sha1 (c_h _ c)) len).
Proof.
  intros Lo. unfold sha1_tostring. rewrite sha1_tobytes_ok by (rewrite repeat_length; lia).
  rewrite put_full by apply sha1_out_length. apply tostring_ok; [apply sha1_out_length|apply sha1_out_bytes|exact Lo].
Qed.
Lemma sha256_tostring_ok c out len : (Nat.min len 65 <= length out)%nat ->
  sha256_tostring c out len = Some (put_hex out (out_sha256 (c_h _ c)) len).
Proof.
  intros Lo. unfold sha256_tostring. rewrite sha256_tobytes_ok by (rewrite ?repeat_length; cbn [In]; lia).
  rewrite put_full by apply sha256_out_length. apply tostring_ok; [apply sha256_out_length|apply sha256_out_bytes|exact Lo].
Qed.
