(** Model of src/mln_rsa.c: RSA keys, encryption and signatures.

    Numbers are those of the bignum model, byte strings are lists of numbers below 256.  [None] is an access outside
    a buffer, a fault in the functions called, or an endless loop; [Some None] is a NULL result.  Allocation
    succeeds.  The random bytes of the padding are taken from a list [ds] of the results of rand_r. *)
Require Import List Arith NArith ZArith Bool.
Require Import Verif.Base Verif.BnModel Verif.BnTextModel Verif.BnModModel Verif.BnPrimeModel
  Verif.DigestModel Verif.Asn1Model.
Import ListNotations.
Open Scope N_scope.

(** include/mln_rsa.h:15-24 mln_rsa_key_t *)
Record key := mkKey {
  k_n : bn; k_ed : bn; k_p : bn; k_q : bn; k_dp : bn; k_dq : bn; k_qinv : bn; k_pwr : bool }.

(** include/mln_rsa.h:53-58 mln_RSA_public_value_set: the other fields keep what they had. *)
Definition public_value_set (k : key) (n e : bn) : key :=
  mkKey n e (k_p k) (k_q k) (k_dp k) (k_dq k) (k_qinv k) true.
(** include/mln_rsa.h:41-42 mln_RSA_public_pwr_set and mln_RSA_public_pwr_reset *)
Definition public_pwr_set (k : key) (b : bool) : key :=
  mkKey (k_n k) (k_ed k) (k_p k) (k_q k) (k_dp k) (k_dq k) (k_qinv k) b.

(** A call whose result -1 the caller ignores; what the operand then holds is outside the model. *)
Definition sure {A} (x : option (option A)) : option A := r <- x ;; r.
(** mln_bignum_div with a NULL quotient: the remainder. *)
Definition bn_mod (d s : bn) : option bn := r <- sure (bn_div d s) ;; Some (fst r).

(** src/mln_rsa.c:130-153 mln_rsa_rsaep_rsadp.  The label [in] is reached by a jump when the difference is negative. *)
Definition rsaep_rsadp (k : key) (x : bn) : option (option bn) :=
  c <- (if k_pwr k then Some 0%Z else bn_abs_compare (k_ed k) (k_p k)) ;;
  let plain := bn_pwr x (k_ed k) (Some (k_n k)) in
  if (c <=? 0)%Z then plain
  else
    m1 <- sure (bn_pwr x (k_dp k) (Some (k_p k))) ;;
    m2 <- sure (bn_pwr x (k_dq k) (Some (k_q k))) ;;
    m1 <- bn_sub m1 m2 ;;
    if neg m1 then plain
    else
      m1 <- bn_mul m1 (k_qinv k) ;;
      m1 <- bn_mod m1 (k_p k) ;;
      m1 <- bn_mul m1 (k_q k) ;;
      m1 <- bn_add m1 m2 ;;
      m1 <- bn_mod m1 (k_n k) ;;
      Some (Some m1).

(** src/mln_rsa.c:164-178 the bytes of the padding: the low byte of each number drawn, zeros drawn again. *)
Fixpoint pad_bytes (fuel : nat) (n : nat) (ds : list N) : option (list N * list N) :=
  match n with
  | O => Some ([], ds)
  | S k =>
      match fuel with
      | O => None
      | S f =>
          d <- draw ds ;;
          let b := fst d mod 256 in
          if b =? 0 then pad_bytes f n (snd d)
          else r <- pad_bytes f k (snd d) ;; Some (b :: fst r, snd r)
      end
  end.

(** src/mln_rsa.c:155-182 mln_rsa_pub_padding.  The count [keylen - inlen - 3] is unsigned: with a short key it is
    huge and the loop leaves the buffer. *)
Definition pub_padding (ds input : list N) (keylen : nat) : option (list N * list N) :=
  if (keylen <? length input + 3)%nat then None
  else
    r <- pad_bytes (length ds) (keylen - length input - 3) ds ;;
    Some ([0; 2] ++ fst r ++ [0] ++ input, snd r).

(** src/mln_rsa.c:184-197 mln_rsa_pri_padding *)
Definition pri_padding (input : list N) (keylen : nat) : option (list N) :=
  if (keylen <? length input + 3)%nat then None
  else Some ([0; 1] ++ repeat 0xff (keylen - length input - 3) ++ [0] ++ input).

(** The loops [for (; test( *p ) && p < end; ++p)] of src/mln_rsa.c:204, 216 and 220: the bytes from p to end, and
    [after], what lies in memory behind end.  The byte at p is read before p is compared with end. *)
Fixpoint scan (test : N -> bool) (l after : list N) : option (list N) :=
  match l with
  | [] => match after with [] => None | _ => Some [] end
  | c :: r => if test c then scan test r after else Some l
  end.

(** src/mln_rsa.c:199-209 mln_rsa_anti_padding_public: the bytes from the pointer returned to the end of the block. *)
Definition anti_padding_public (block after : list N) : option (option (list N)) :=
  match block with
  | a :: rest =>
      if negb (a =? 0) then Some None
      else
        match rest with
        | b :: rest =>
            if negb (b =? 2) then Some None
            else
              p <- scan (fun c => negb (c =? 0)) rest after ;;
              match p with
              | _ :: (_ :: _) as m => Some (Some m)
              | _ => Some None
              end
        | [] => None
        end
  | [] => Some None
  end.

(** src/mln_rsa.c:211-228 mln_rsa_anti_padding_private *)
Definition anti_padding_private (block after : list N) : option (option (list N)) :=
  match block with
  | a :: rest =>
      if negb (a =? 0) then Some None
      else
        match rest with
        | b :: rest =>
            if b =? 0 then
              p <- scan (fun c => c =? 0) rest after ;;
              match p with [] => Some None | m => Some (Some m) end
            else if b =? 1 then
              p <- scan (fun c => c =? 0xff) rest after ;;
              match p with
              | c :: (_ :: _) as m => if c =? 0 then Some (Some m) else Some None
              | _ => Some None
              end
            else Some None
        | [] => None
        end
  | [] => Some None
  end.

(** The length of the modulus in bytes, [mln_bignum_get_length(&(key->n)) << 2]. *)
Definition nlen (k : key) : nat := (4 * len (k_n k))%nat.
(** [nlen - 11] in 64-bit unsigned arithmetic. *)
Definition room (k : key) : N := (N.of_nat (nlen k) + 2 ^ 64 - 11) mod 2 ^ 64.

(** src/mln_rsa.c:250-262 and 347-358: a padded block is replaced by its power. *)
Definition crypt_block (k : key) (block : list N) : option (option (list N)) :=
  x <- bn_os2ip block ;;
  match x with
  | None => Some None
  | Some x =>
      y <- rsaep_rsadp k x ;;
      match y with None => Some None | Some y => Some (bn_i2osp y (nlen k)) end
  end.

(** src/mln_rsa.c:230-273 mln_RSAESPKCS1V15_public_encrypt.  A text longer than [nlen - 11] is refused at once, so
    there is at most one block.  The size [sum] is [nlen] whenever the text is not empty: the conditional operator
    binds weaker than the sum before it. *)
Definition public_encrypt (k : key) (ds text : list N) : option (option (list N) * list N) :=
  if room k <? N.of_nat (length text) then Some (None, ds)
  else
    match text with
    | [] => Some (Some [], ds)
    | _ => p <- pub_padding ds text (nlen k) ;; c <- crypt_block k (fst p) ;; Some (c, snd p)
    end.

(** src/mln_rsa.c:330-371 mln_RSAESPKCS1V15_private_encrypt *)
Definition private_encrypt (k : key) (text : list N) : option (option (list N)) :=
  if room k <? N.of_nat (length text) then Some None
  else
    match text with
    | [] => Some (Some [])
    | _ => p <- pri_padding text (nlen k) ;; crypt_block k p
    end.

(** src/mln_rsa.c:294-322 and 390-417: the blocks of a cipher one after the other.  The power is written over the
    block in the caller's string; the first component is what that string holds afterwards. *)
Fixpoint decrypt_blocks (n : nat) (k : key) (anti : list N -> list N -> option (option (list N))) (behind cipher : list N)
    : option (list N * option (list N)) :=
  match cipher with
  | [] => Some ([], Some [])
  | _ =>
      match n with
      | O => None
      | S n' =>
          let block := firstn (nlen k) cipher in
          let after := skipn (nlen k) cipher in
          c <- crypt_block k block ;;
          match c with
          | None => Some (cipher, None)
          | Some out =>
              m <- anti out (after ++ behind) ;;
              match m with
              | None => Some (out ++ after, None)
              | Some m =>
                  r <- decrypt_blocks n' k anti behind after ;;
                  Some (out ++ fst r, option_map (app m) (snd r))
              end
          end
      end
  end.

(** src/mln_rsa.c:275-328 and 373-423; [behind] is what lies in memory after the string.  [cipher->len % nlen] with a modulus of no limbs is a division by zero. *)
Definition decrypt (k : key) (anti : list N -> list N -> option (option (list N))) (behind cipher : list N)
    : option (list N * option (list N)) :=
  if (length cipher <? 11)%nat then Some (cipher, None)
  else if (nlen k =? 0)%nat then None
  else if negb (length cipher mod nlen k =? 0)%nat then Some (cipher, None)
  else decrypt_blocks (length cipher) k anti behind cipher.
(** src/mln_rsa.c:275-328 mln_RSAESPKCS1V15_public_decrypt *)
Definition public_decrypt (k : key) := decrypt k anti_padding_private.
(** src/mln_rsa.c:373-423 mln_RSAESPKCS1V15_private_decrypt *)
Definition private_decrypt (k : key) := decrypt k anti_padding_public.

(** include/mln_rsa.h:11-13 the hashes; any other number is refused. *)
Inductive hash := MD5 | SHA1 | SHA256.
Definition hash_of (t : N) : option hash :=
  if t =? 0 then Some MD5 else if t =? 1 then Some SHA1 else if t =? 2 then Some SHA256 else None.
(** src/mln_rsa.c:31-44 the object identifiers *)
Definition hash_oid (h : hash) : list N :=
  match h with
  | MD5 => [0x2a; 0x86; 0x48; 0x86; 0xf7; 0xd; 0x2; 0x5]
  | SHA1 => [0x2b; 0xe; 0x3; 0x2; 0x1a]
  | SHA256 => [0x60; 0x86; 0x48; 0x1; 0x65; 0x3; 0x4; 0x2; 0x1]
  end.

(** src/mln_rsa.c:438-474 and 590-659: [hashval] of 32 zero bytes, filled with the digest of the whole text; the
    first [hlen] bytes are used.  The 64 bytes of the context's buffer are taken as zeros; its content does not matter. *)
Definition hash_text (h : hash) (m : list N) : option (list N) :=
  let buf := repeat 0 64 in
  let hashval := repeat 0 32 in
  match h with
  | MD5 => c <- md5_calc (md5_init buf) m true ;; v <- md5_tobytes c hashval 16 ;; Some (firstn 16 v)
  | SHA1 => c <- sha1_calc (sha1_init buf) m true ;; v <- sha1_tobytes c hashval 20 ;; Some (firstn 20 v)
  | SHA256 => c <- sha256_calc (sha256_init buf) m true ;; v <- sha256_tobytes c hashval 32 ;; Some (firstn 32 v)
  end.

(** src/mln_rsa.c:434-519 mln_EMSAPKCS1V15_encode *)
Definition emsa_encode (m : list N) (hash_type : N) : option (option (list N)) :=
  match hash_of hash_type with
  | None => Some None
  | Some h =>
      hv <- hash_text h m ;;
      r <- encode_object_identifier en_init (hash_oid h) ;;
      r <- encode_null r ;;
      r <- encode_sequence r ;;
      d <- encode_octetstring en_init hv ;;
      r <- encode_sequence (encode_merge r d) ;;
      Some (get_content r 0)
  end.

(** src/mln_rsa.c:521-575 mln_RSASSAPKCS1V15_sign: the encoding in pieces of at most [nlen - 11] bytes.  The buffer
    of 4096 bytes grows when a piece does not fit; a list needs no such step. *)
Fixpoint sign_loop (n : nat) (k : key) (em : list N) : option (option (list N)) :=
  match em with
  | [] => Some (Some [])
  | _ =>
      match n with
      | O => None
      | S n' =>
          let size := N.to_nat (N.min (N.of_nat (length em)) (room k)) in
          c <- private_encrypt k (firstn size em) ;;
          match c with
          | None => Some None
          | Some c => r <- sign_loop n' k (skipn size em) ;; Some (option_map (app c) r)
          end
      end
  end.
Definition sign (k : key) (m : list N) (hash_type : N) : option (option (list N)) :=
  if room k <? 1 then Some None
  else
    em <- emsa_encode m hash_type ;;
    match em with None => Some None | Some em => sign_loop (length em) k em end.

(** Parts of a decoded element, include/mln_asn1.h:65-70. *)
Definition d_ident (r : dres) : N := let '(DRes _ _ _ i _) := r in i.
Definition d_code (r : dres) : list N := let '(DRes c _ _ _ _) := r in c.
Definition d_num (r : dres) : nat := let '(DRes _ _ _ _ cs) := r in length cs.

(** mln_string_strcmp(a, b) == 0, src/mln_string.c; the comparison itself is modelled with the strings. *)
Definition same (a b : list N) : bool := if list_eq_dec N.eq_dec a b then true else false.

(** src/mln_rsa.c:712-720 the search in the table of hashes *)
Definition hash_by_oid (code : list N) : option hash :=
  if same code (hash_oid MD5) then Some MD5
  else if same code (hash_oid SHA1) then Some SHA1
  else if same code (hash_oid SHA256) then Some SHA256 else None.

(** src/mln_rsa.c:674-747 mln_EMSAPKCS1V15_decode; bytes behind the element are not looked at. *)
Definition emsa_decode (e : list N) : option (option (hash * list N)) :=
  match asn1_decode e with
  | Incomplete | Error => Some None
  | Undefined | Stuck => None
  | Done res _ =>
      if negb (d_ident res =? 16) || negb (d_num res =? 2)%nat then Some None
      else
        alg <- content_get res 0 ;;
        if negb (d_ident alg =? 16) || negb (d_num alg =? 2)%nat then Some None
        else
          oid <- content_get alg 0 ;;
          if negb (d_ident oid =? 6) then Some None
          else
            match content_get oid 0 with
            | None => Some None
            | Some oid =>
                match hash_by_oid (d_code oid) with
                | None => Some None
                | Some h =>
                    par <- content_get alg 1 ;;
                    if negb (d_ident par =? 5) || negb (d_num par =? 1)%nat then Some None
                    else
                      par <- content_get par 0 ;;
                      if negb (length (d_code par) =? 0)%nat then Some None
                      else
                        dig <- content_get res 1 ;;
                        if negb (d_ident dig =? 4) || negb (d_num dig =? 1)%nat then Some None
                        else dig <- content_get dig 0 ;; Some (Some (h, d_code dig))
                end
            end
  end.

(** src/mln_rsa.c:605-630 the loop of mln_RSASSAPKCS1V15_verify: each block is given to public_decrypt, which
    overwrites it.  The bytes behind the block are in the same string. *)
Fixpoint verify_loop (n : nat) (k : key) (s : list N) : option (list N * option (list N)) :=
  match s with
  | [] => Some ([], Some [])
  | _ =>
      match n with
      | O => None
      | S n' =>
          let block := firstn (nlen k) s in
          let after := skipn (nlen k) s in
          r <- public_decrypt k after block ;;
          match snd r with
          | None => Some (fst r ++ after, None)
          | Some m =>
              t <- verify_loop n' k after ;;
              Some (fst r ++ fst t, option_map (app m) (snd t))
          end
      end
  end.

(** src/mln_rsa.c:577-672 mln_RSASSAPKCS1V15_verify: what the signature's string holds afterwards, and whether the
    return value is 0. *)
Definition verify (k : key) (m s : list N) : option (list N * bool) :=
  if (nlen k =? 0)%nat then None
  else if negb (length s mod nlen k =? 0)%nat then Some (s, false)
  else
    r <- verify_loop (length s) k s ;;
    match snd r with
    | None => Some (fst r, false)
    | Some e =>
        d <- emsa_decode e ;;
        match d with
        | None => Some (fst r, false)
        | Some (h, v) => hv <- hash_text h m ;; Some (fst r, same v hv)
        end
    end.

(** src/mln_rsa.c:102 the exponent 0x10001 *)
Definition bn_e : bn := mkBn false 1 (65537 :: zeros (SIZE - 1)).

(** src/mln_rsa.c:74-126 one turn from the label lp.  [Some None] is -1, [Some (Some (None, ds))] a jump back to the
    label.  Both pointers are given; with one of them NULL the same numbers are computed for the other. *)
Definition generate_once (bits : N) (ds : list N) : option (option (option (key * key) * list N)) :=
  rp <- bn_prime (N.shiftr bits 1 + 1) ds ;;
  match rp with
  | None => Some None
  | Some (p, ds) =>
      rq <- bn_prime (N.shiftr bits 1) ds ;;
      match rq with
      | None => Some None
      | Some (q, ds) =>
          let again := Some (Some (None, ds)) in
          c <- bn_compare p q ;;
          if (c =? 0)%Z then again
          else
            n <- bn_mul p q ;;
            t <- bn_bit_test n (bits - 1) ;;
            if negb t then again
            else
              x <- bn_eulid q p ;;
              match x with
              | None => again
              | Some (qinv, _) =>
                  c <- bn_compare qinv bn_one ;;
                  if (c <? 0)%Z then again
                  else
                    p1 <- bn_sub p bn_one ;;
                    q1 <- bn_sub q bn_one ;;
                    phi <- bn_mul p1 q1 ;;
                    x <- bn_eulid bn_e phi ;;
                    match x with
                    | None => again
                    | Some (d, _) =>
                        c <- bn_compare d bn_e ;;
                        if (c <=? 0)%Z then again
                        else
                          ep <- bn_mod bn_e p1 ;; eq <- bn_mod bn_e q1 ;;
                          dp <- bn_mod d p1 ;; dq <- bn_mod d q1 ;;
                          Some (Some (Some (mkKey n bn_e p q ep eq qinv false, mkKey n d p q dp dq qinv false), ds))
                    end
              end
      end
  end.
Fixpoint generate_loop (fuel : nat) (bits : N) (ds : list N) : option (option (key * key * list N)) :=
  match fuel with
  | O => None
  | S f =>
      r <- generate_once bits ds ;;
      match r with
      | None => Some None
      | Some (None, ds) => generate_loop f bits ds
      | Some (Some ks, ds) => Some (Some (ks, ds))
      end
  end.
(** src/mln_rsa.c:64-128 mln_rsa_key_generate: the public and the private key. *)
Definition key_generate (bits : N) (ds : list N) : option (option (key * key * list N)) :=
  if (bits <=? 88) || (BITS <? bits) then Some None else generate_loop (length ds) bits ds.
