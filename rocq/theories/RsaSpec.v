(** Specification of RSA as in RFC 8017 (PKCS #1), independent of how the code computes: what a key pair is, the
    two block formats, and the encoding of a digest. *)
Require Import List Arith NArith ZArith Znumtheory.
Require Import Verif.Base Verif.EndianSpec Verif.BnModel Verif.BnSpec Verif.RsaModel Verif.DigestSpec.
Import ListNotations.
Open Scope N_scope.

(** A structure holds a number. *)
Definition holds (b : bn) (x : N) : Prop := wf b /\ value b = Z.of_N x.

(** The numbers of a key pair: n is a product of two primes, e and d are inverse modulo (p-1)(q-1). *)
Record pair (n e d p q : N) : Prop := {
  pr_p : prime (Z.of_N p); pr_q : prime (Z.of_N q); pr_pq : p <> q; pr_n : n = p * q;
  pr_ed : (e * d) mod ((p - 1) * (q - 1)) = 1 }.

(** A key structure for the modulus n = pq and the exponent x.  A key with the flag set (made from n and the
    exponent alone) may have anything in its other fields. *)
Record key_for (k : key) (n x p q : N) : Prop := {
  kf_n : holds (k_n k) n;
  kf_x : holds (k_ed k) x;
  kf_p : k_pwr k = false -> holds (k_p k) p;
  kf_q : k_pwr k = false -> holds (k_q k) q;
  kf_dp : k_pwr k = false -> holds (k_dp k) (x mod (p - 1));
  kf_dq : k_pwr k = false -> holds (k_dq k) (x mod (q - 1));
  kf_i : k_pwr k = false -> exists i, holds (k_qinv k) i /\ i <= p /\ (q * i) mod p = 1 }.

(** Both keys of a pair, of a size for which the arithmetic has room and with an exponent that is not trivial. *)
Record keys (pub pri : key) (n e d p q : N) : Prop := {
  ks_pair : pair n e d p q;
  ks_pub : key_for pub n e p q;
  ks_pri : key_for pri n d p q;
  ks_p : 2 ^ 32 <= p; ks_q : 2 ^ 32 <= q; ks_n : n < 2 ^ 4096;
  ks_e : 2 <= e; ks_ep : e < p - 1; ks_eq : e < q - 1 }.

(** A public key set from a modulus and an exponent alone, as one that came over the wire: nothing is known about the
    factors of the modulus. *)
Record public_key (k : key) (n e : N) : Prop := {
  pk_flag : k_pwr k = true; pk_n : holds (k_n k) n; pk_e : holds (k_ed k) e; pk_size : 2 ^ 64 <= n < 2 ^ 4096; pk_exp : 2 <= e }.

(** The number of octets of the modulus counted in whole 32-bit limbs. *)
Definition octets (n len : N) : Prop := exists l, len = 4 * l /\ 2 ^ (32 * (l - 1)) <= n < 2 ^ (32 * l) /\ 1 <= l.

(** The encryption block of type 2 and of type 1 (RFC 8017 7.2.1 and 9.2). *)
Definition block2 (ps m : list N) : list N := [0; 2] ++ ps ++ [0] ++ m.
Definition block1 (k : nat) (m : list N) : list N := [0; 1] ++ repeat 255 (k - 3 - length m) ++ [0] ++ m.

(** How many of the numbers drawn give a byte of padding: those whose low byte is not zero. *)
Definition nonzero_draws (ds : list N) : nat := length (filter (fun d => negb (d mod 256 =? 0)) ds).

(** The digests. *)
Definition digest (h : hash) (m : list N) : list N :=
  match h with MD5 => md5 m | SHA1 => sha1 m | SHA256 => sha256 m end.

(** The DER encoding of a DigestInfo, RFC 8017 9.2 note 1. *)
Definition digest_info (h : hash) (m : list N) : list N :=
  match h with
  | MD5 => [0x30; 0x20; 0x30; 0x0c; 0x06; 0x08; 0x2a; 0x86; 0x48; 0x86; 0xf7; 0x0d; 0x02; 0x05; 0x05; 0x00; 0x04; 0x10]
  | SHA1 => [0x30; 0x21; 0x30; 0x09; 0x06; 0x05; 0x2b; 0x0e; 0x03; 0x02; 0x1a; 0x05; 0x00; 0x04; 0x14]
  | SHA256 => [0x30; 0x31; 0x30; 0x0d; 0x06; 0x09; 0x60; 0x86; 0x48; 0x01; 0x65; 0x03; 0x04; 0x02; 0x01; 0x05; 0x00; 0x04; 0x20]
  end ++ digest h m.

(** What the padding of types 1 and 0 wraps. *)
Definition unpadded (block m : list N) : Prop :=
  (exists j, block = [0; 1] ++ repeat 255 j ++ [0] ++ m) \/ (exists j, block = [0; 0] ++ repeat 0 j ++ m).

(** The text a signature gives under the public operation: its blocks of [k] bytes, raised to [e] modulo [n], without
    their padding, one after the other. *)
Inductive recovered (k : nat) (n e : N) : list N -> list N -> Prop :=
  | rec_nil : recovered k n e [] []
  | rec_block c block m cs ms : length c = k -> length block = k -> bytes block -> be_value block = be_value c ^ e mod n ->
      unpadded block m -> m <> [] -> recovered k n e cs ms -> recovered k n e (c ++ cs) (m ++ ms).

(** The identifier of the hash [h], and later on the bytes [d], are part of a text. *)
Definition carries (text : list N) (h : hash) (d : list N) : Prop :=
  exists pre mid post, text = pre ++ hash_oid h ++ mid ++ d ++ post.
