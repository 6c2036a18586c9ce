(** * RSA encryption: the properties *)
Require Import List Arith NArith ZArith Znumtheory Lia.
Require Import Verif.Base Verif.EndianSpec Verif.BnModel Verif.BnSpec Verif.BnProofs Verif.RsaModel Verif.RsaSpec Verif.RsaProofs Verif.RsaBlockProofs
  Verif.RsaShortProofs Verif.RsaExample.
Import ListNotations.
Local Open Scope N_scope.

(** Both keys of a pair work on blocks of the same length, that of the modulus in whole limbs of four bytes. *)
Theorem rsa_block_length :
  forall pub pri n e d p q, keys pub pri n e d p q ->
    octets n (N.of_nat (nlen pub)) /\ nlen pri = nlen pub /\ (12 <= nlen pub <= 512)%nat /\ forall len, octets n len -> len = N.of_nat (nlen pub).
Proof.
  intros pub pri n e d p q K. destruct (keys_good _ _ _ _ _ _ _ K) as [G G'].
  assert (O : octets n (N.of_nat (nlen pub))) by apply (octets_ok _ _ _ _ _ G).
  split; [exact O|]. split; [symmetry; apply (nlen_eq pub pri n e d p q); [apply G|apply G']|]. split; [apply (nlen_bounds _ _ _ _ _ G)|].
  intros len H. apply (octets_unique n); assumption.
Qed.
Print Assumptions rsa_block_length.

(** What the public key encrypts the private key decrypts.  The full property has no condition on the modulus other
    than that the text is at most k - 11 bytes long, and holds for the empty text: both parts are refuted below. *)
Theorem rsa_public_round_trip_partial :
  forall pub pri n e d p q m ds behind, keys pub pri n e d p q ->
    3 * 256 ^ N.of_nat (nlen pub - 2) <= n -> bytes m -> m <> [] -> (length m + 11 <= nlen pub)%nat ->
    (nlen pub - length m - 3 <= nonzero_draws ds)%nat ->
    exists c ds' c', public_encrypt pub ds m = Some (Some c, ds') /\ length c = nlen pub /\ bytes c /\
      private_decrypt pri behind c = Some (c', Some m).
Proof. exact public_round_trip. Qed.
Print Assumptions rsa_public_round_trip_partial.

(** What the private key encrypts the public key decrypts. *)
Theorem rsa_private_round_trip_partial :
  forall pub pri n e d p q m behind, keys pub pri n e d p q ->
    2 * 256 ^ N.of_nat (nlen pri - 2) <= n -> bytes m -> m <> [] -> (length m + 11 <= nlen pri)%nat ->
    exists c c', private_encrypt pri m = Some (Some c) /\ length c = nlen pri /\ bytes c /\
      public_decrypt pub behind c = Some (c', Some m).
Proof. exact private_round_trip. Qed.
Print Assumptions rsa_private_round_trip_partial.

(** Ciphers put one behind the other decrypt to the texts put one behind the other, in both directions. *)
Theorem rsa_concatenated_partial :
  forall pub pri n e d p q behind cs ms, keys pub pri n e d p q -> cs <> [] ->
    (3 * 256 ^ N.of_nat (nlen pub - 2) <= n ->
     Forall2 (fun c m => bytes m /\ m <> [] /\ (length m + 11 <= nlen pub)%nat /\
       exists ds ds', (nlen pub - length m - 3 <= nonzero_draws ds)%nat /\ public_encrypt pub ds m = Some (Some c, ds')) cs ms ->
     exists c', private_decrypt pri behind (concat cs) = Some (c', Some (concat ms))) /\
    (2 * 256 ^ N.of_nat (nlen pri - 2) <= n ->
     Forall2 (fun c m => bytes m /\ m <> [] /\ (length m + 11 <= nlen pri)%nat /\ private_encrypt pri m = Some (Some c)) cs ms ->
     exists c', public_decrypt pub behind (concat cs) = Some (c', Some (concat ms))).
Proof.
  intros pub pri n e d p q behind cs ms K C. destruct (keys_good _ _ _ _ _ _ _ K) as [G G'].
  assert (NL : nlen pub = nlen pri) by (apply (nlen_eq pub pri n e d p q); [apply G|apply G']).
  split; intros T F; apply decrypt_more; auto.
  - pose proof (nlen_bounds _ _ _ _ _ G'). lia.
  - refine (forall2_weaken _ _ _ _ _ F). intros c m (B & M & L & ds & ds' & D & E).
    destruct (public_encrypt_ok pub pri n e d p q m ds K T B M L D) as (ps & c1 & ds1 & E' & Lc & _ & _ & _ & NZ & _ & E2).
    rewrite E in E'. injection E' as <- _. split; [congruence|]. exists (block2 ps m). split; [exact E2|]. intros b. apply anti_public; auto.
  - pose proof (nlen_bounds _ _ _ _ _ G). lia.
  - refine (forall2_weaken _ _ _ _ _ F). intros c m (B & M & L & E).
    destruct (private_encrypt_ok pri pub n d e p q m (pair_sym _ _ _ _ _ (ks_pair _ _ _ _ _ _ _ K)) G' G T B M L) as (c1 & E' & Lc & _ & _ & E2).
    rewrite E in E'. injection E' as <-. split; [congruence|]. exists (block1 (nlen pri) m). split; [exact E2|]. intros b. apply anti_private; auto.
Qed.
Print Assumptions rsa_concatenated_partial.

(** The cipher is the one of RFC 8017: the block 0 2 PS 0 M with at least eight bytes in PS, none of them zero, raised to e modulo n. *)
Theorem rsa_cipher_standard :
  forall pub pri n e d p q m ds, keys pub pri n e d p q ->
    3 * 256 ^ N.of_nat (nlen pub - 2) <= n -> bytes m -> m <> [] -> (length m + 11 <= nlen pub)%nat ->
    (nlen pub - length m - 3 <= nonzero_draws ds)%nat ->
    exists ps c ds', public_encrypt pub ds m = Some (Some c, ds') /\ length (block2 ps m) = nlen pub /\ length c = nlen pub /\
      (8 <= length ps)%nat /\ bytes ps /\ ~ In 0 ps /\ be_value c = be_value (block2 ps m) ^ e mod n.
Proof.
  intros pub pri n e d p q m ds K T B M L D.
  destruct (public_encrypt_ok pub pri n e d p q m ds K T B M L D) as (ps & c & ds' & E & Lc & _ & [Lp L8] & Bp & NZ & V & _).
  exists ps, c, ds'. split; [exact E|]. split; [unfold block2; rewrite !app_length; cbn [length]; clear - Lp L; lia|]. split; [exact Lc|]. split; [exact L8|]. split; [exact Bp|].
  split; [intros H; apply (NZ 0 H); reflexivity|exact V].
Qed.
Print Assumptions rsa_cipher_standard.

(** The primitive itself, for every block and both keys, by the Chinese remainder theorem or not: raising to the
    exponent modulo n, and undone by the other key. *)
Theorem rsa_primitive :
  forall pub pri n e d p q block, keys pub pri n e d p q -> bytes block -> length block = nlen pub -> be_value block < n ->
    exists c, crypt_block pub block = Some (Some c) /\ bytes c /\ length c = nlen pub /\ be_value c = be_value block ^ e mod n /\
      crypt_block pri c = Some (Some block).
Proof.
  intros pub pri n e d p q block K B L V. destruct (keys_good _ _ _ _ _ _ _ K) as [G G'].
  destruct (crypt_inverse pub pri n e d p q block (ks_pair _ _ _ _ _ _ _ K) G G' B L V) as (c & H1 & H2 & H3 & H4 & H5).
  exists c. auto 6.
Qed.
Print Assumptions rsa_primitive.

(** A text that does not fit is refused. *)
Theorem rsa_too_long :
  forall pub pri n e d p q m ds, keys pub pri n e d p q -> (nlen pub < length m + 11)%nat ->
    public_encrypt pub ds m = Some (None, ds) /\ private_encrypt pri m = Some None.
Proof.
  intros pub pri n e d p q m ds K L. split; [apply (too_long_public _ _ _ _ _ _ _ _ _ K L)|].
  apply (too_long_private _ _ _ _ _ _ _ _ K). destruct (keys_good _ _ _ _ _ _ _ K) as [G G'].
  rewrite <- (nlen_eq pub pri n e d p q); [exact L|apply G|apply G'].
Qed.
Print Assumptions rsa_too_long.

(** ** Where the property fails *)

(** The block is as long as the limbs of the modulus, not as its bytes: a modulus whose top limb is small is below
    every padded block, and then nothing that is encrypted can be decrypted. *)
Theorem rsa_short_modulus_refuted :
  forall pub pri n e d p q m ds behind c ds', keys pub pri n e d p q -> n < 2 * 256 ^ N.of_nat (nlen pub - 2) ->
    bytes m -> m <> [] -> public_encrypt pub ds m = Some (Some c, ds') -> exists c', private_decrypt pri behind c = Some (c', None).
Proof. exact short_modulus. Qed.
Print Assumptions rsa_short_modulus_refuted.

(** The empty text encrypts to nothing, which decryption refuses. *)
Theorem rsa_empty_refuted :
  forall pub pri ds behind, public_encrypt pub ds [] = Some (Some [], ds) /\ private_decrypt pri behind [] = Some ([], None).
Proof.
  intros pub pri ds behind. split; [|reflexivity]. unfold public_encrypt. destruct (N.ltb_spec (room pub) (N.of_nat (length (@nil N)))) as [H|H]; [|reflexivity].
  exfalso. cbn [length] in H. change (N.of_nat 0) with 0 in H. revert H. apply N.nlt_0_r.
Qed.
Print Assumptions rsa_empty_refuted.

(** Decryption writes the clear block over the caller's cipher. *)
Theorem rsa_cipher_kept_refuted :
  forall pub pri n e d p q m ds behind, keys pub pri n e d p q ->
    3 * 256 ^ N.of_nat (nlen pub - 2) <= n -> bytes m -> m <> [] -> (length m + 11 <= nlen pub)%nat ->
    (nlen pub - length m - 3 <= nonzero_draws ds)%nat ->
    exists c ds' ps, public_encrypt pub ds m = Some (Some c, ds') /\ private_decrypt pri behind c = Some (block2 ps m, Some m).
Proof.
  intros pub pri n e d p q m ds behind K T B M L D.
  destruct (public_encrypt_ok pub pri n e d p q m ds K T B M L D) as (ps & c & ds' & E & Lc & _ & _ & _ & NZ & _ & E2).
  destruct (keys_good _ _ _ _ _ _ _ K) as [G G']. pose proof (nlen_bounds _ _ _ _ _ G) as NB.
  assert (NL : nlen pub = nlen pri) by (apply (nlen_eq pub pri n e d p q); [apply G|apply G']).
  exists c, ds', ps. split; [exact E|]. apply decrypt_one; [clear - Lc NL; lia|clear - NB NL; lia|exact E2|]. apply anti_public; [exact NZ|exact M].
Qed.
Print Assumptions rsa_cipher_kept_refuted.

(** A cipher whose clear block has no zero byte makes the search for that byte run past the end of the cipher's
    string, here one with nothing behind it. *)
Theorem rsa_cipher_bounds_refuted :
  exists pub pri n e d p q c, keys pub pri n e d p q /\ bytes c /\ length c = nlen pri /\ private_decrypt pri [] c = None.
Proof.
  exists small_pub, small_pri, small_n, 65537, small_d, small_p, small_q, [127; 131; 234; 56; 81; 155; 254; 209; 13; 212; 252; 179].
  split; [exact small_keys|]. split; [repeat constructor|]. split; vm_compute; reflexivity.
Qed.
Print Assumptions rsa_cipher_bounds_refuted.

(** ** Cases that meet the hypotheses *)

(** A key of 96 bits, for which all the text that fits is one byte, and one of 372 bits. *)
Example rsa_ex_small :
  keys small_pub small_pri small_n 65537 small_d small_p small_q /\ nlen small_pub = 12%nat /\ 3 * 256 ^ N.of_nat (nlen small_pub - 2) <= small_n /\
  nonzero_draws [0; 1; 2; 3; 256; 4; 5; 6; 7; 8] = 8%nat.
Proof. split; [exact small_keys|]. split; [reflexivity|]. split; [|reflexivity]. apply N.leb_le. vm_compute. reflexivity. Qed.

Example rsa_ex_small_run :
  exists c ds' c', public_encrypt small_pub [0; 1; 2; 3; 256; 4; 5; 6; 7; 8; 9] [77] = Some (Some c, ds') /\
    private_decrypt small_pri [] c = Some (c', Some [77]).
Proof.
  destruct rsa_ex_small as (K & L & T & D).
  destruct (rsa_public_round_trip_partial _ _ _ _ _ _ _ [77] [0; 1; 2; 3; 256; 4; 5; 6; 7; 8; 9] [] K T) as (c & ds' & c' & E & _ & _ & P);
    [repeat constructor|discriminate|vm_compute; repeat constructor|vm_compute; repeat constructor|].
  exists c, ds', c'. split; assumption.
Qed.

Example rsa_ex_concatenated :
  exists c1 c2 ds1 ds2 c', public_encrypt small_pub [1; 2; 3; 4; 5; 6; 7; 8] [77] = Some (Some c1, ds1) /\
    public_encrypt small_pub [8; 7; 6; 5; 4; 3; 2; 1] [78] = Some (Some c2, ds2) /\
    private_decrypt small_pri [] (c1 ++ c2) = Some (c', Some [77; 78]).
Proof.
  destruct rsa_ex_small as (K & L & T & _).
  destruct (rsa_public_round_trip_partial _ _ _ _ _ _ _ [77] [1; 2; 3; 4; 5; 6; 7; 8] [] K T) as (c1 & ds1 & _ & E1 & _);
    [repeat constructor|discriminate|vm_compute; repeat constructor|vm_compute; repeat constructor|].
  destruct (rsa_public_round_trip_partial _ _ _ _ _ _ _ [78] [8; 7; 6; 5; 4; 3; 2; 1] [] K T) as (c2 & ds2 & _ & E2 & _);
    [repeat constructor|discriminate|vm_compute; repeat constructor|vm_compute; repeat constructor|].
  destruct (proj1 (rsa_concatenated_partial _ _ _ _ _ _ _ [] [c1; c2] [[77]; [78]] K ltac:(discriminate)) T) as (c' & E).
  - constructor; [|constructor; [|constructor]].
    + split; [repeat constructor|]. split; [discriminate|]. split; [vm_compute; repeat constructor|]. exists [1; 2; 3; 4; 5; 6; 7; 8], ds1.
      split; [vm_compute; repeat constructor|exact E1].
    + split; [repeat constructor|]. split; [discriminate|]. split; [vm_compute; repeat constructor|]. exists [8; 7; 6; 5; 4; 3; 2; 1], ds2.
      split; [vm_compute; repeat constructor|exact E2].
  - cbn [concat app] in E. rewrite app_nil_r in E. exists c1, c2, ds1, ds2, c'. auto.
Qed.

Example rsa_ex_mid :
  keys mid_pub mid_pri mid_n 65537 mid_d mid_p mid_q /\ nlen mid_pub = 48%nat /\ 3 * 256 ^ N.of_nat (nlen mid_pub - 2) <= mid_n /\ ~ mid_n < 2 ^ 371.
Proof. split; [exact mid_keys|]. split; [reflexivity|]. split; [apply N.leb_le; vm_compute; reflexivity|apply N.nlt_ge, N.leb_le; vm_compute; reflexivity]. Qed.

(** A key of 97 bits is short: its four limbs ask for blocks of sixteen bytes. *)
Example rsa_ex_short :
  keys short_pub short_pri short_n 65537 short_d short_p short_q /\ nlen short_pub = 16%nat /\ short_n < 2 * 256 ^ N.of_nat (nlen short_pub - 2) /\
  exists c ds', public_encrypt short_pub (repeat 5 20) [77] = Some (Some c, ds').
Proof.
  split; [exact short_keys|]. split; [reflexivity|]. split; [apply N.ltb_lt; vm_compute; reflexivity|]. do 2 eexists. vm_compute. reflexivity.
Qed.
