(** C15, C16, C17: string search, comparison, slicing and trimming. *)
Require Import List Arith NArith ZArith.
Require Import Verif.Base Verif.StrModel Verif.StrSpec Verif.KmpProofs Verif.StrProofs.
Import ListNotations.

(** C15, KMP: for every text and every non-empty pattern the search returns the leftmost occurrence, or reports that
    there is none; no table access is out of range and the fall-back loops terminate (the outcome is [Some]). *)
Theorem kmp_finds_first_occurrence :
  forall text p, p <> [] ->
    exists r, kmp_match text p = Some r /\
      match r with Some i => first_occurrence text p i | None => forall j, ~ occurs_at text p j end.
Proof. exact (fun text p => kmp_match_ok p text). Qed.
Print Assumptions kmp_finds_first_occurrence.

Example kmp_meets :
  [1;1;2]%N <> [] /\ kmp_match [1;2;1;1;1;2;1;1;2]%N [1;1;2]%N = Some (Some 3) /\
  kmp_match [1;2;1;2]%N [2;2]%N = Some None.
Proof. repeat split; discriminate. Qed.

(** C15, plain search: correct when both strings own their NUL-terminated bytes and contain no NUL. *)
Theorem strstr_first_occurrence_partial :
  forall text pat, Forall (fun c => c <> 0%N) text -> Forall (fun c => c <> 0%N) pat ->
    match mstrstr (mkV (text ++ [0%N]) 0 (length text)) (mkV (pat ++ [0%N]) 0 (length pat)) with
    | Some i => first_occurrence text pat i
    | None => forall j, ~ occurs_at text pat j
    end.
Proof. exact strstr_ok. Qed.
Print Assumptions strstr_first_occurrence_partial.

Example strstr_meets :
  Forall (fun c => c <> 0%N) [5;6;7]%N /\ mstrstr (mkV [5;6;7;0]%N 0 3) (mkV [6;7;0]%N 0 2) = Some 1.
Proof. repeat constructor; discriminate. Qed.

(** For strings that are windows into a longer block (what slicing produces) the plain search reports an occurrence that
    lies outside the text. *)
Theorem strstr_view_refuted :
  exists text pat i, mstrstr text pat = Some i /\ v_len text = 2 /\ forall j, ~ occurs_at (view_bytes text) (view_bytes pat) j.
Proof.
  exists (mkV [97;98;99;100;0]%N 0 2), (mkV [99;100;0]%N 0 2), 2. repeat split.
  intros j (a & b & E & _). cbn in E.
  destruct a as [|? [|? [|]]]; cbn in E; discriminate.
Qed.
Print Assumptions strstr_view_refuted.

(** C16: strings at distinct addresses compare equal exactly when their bytes are equal. *)
Theorem strcmp_zero_iff_equal_partial :
  forall s1 s2, bytes (s_bytes s1) -> bytes (s_bytes s2) -> s_addr s1 <> s_addr s2 ->
    (mstrcmp s1 s2 = 0%Z <-> s_bytes s1 = s_bytes s2).
Proof. exact strcmp_eq. Qed.
Print Assumptions strcmp_zero_iff_equal_partial.

(** Two windows with the same start and different lengths compare equal. *)
Theorem strcmp_zero_iff_equal_refuted :
  exists s1 s2, bytes (s_bytes s1) /\ bytes (s_bytes s2) /\ mstrcmp s1 s2 = 0%Z /\ s_bytes s1 <> s_bytes s2.
Proof. exists (mkS 1 [97]%N), (mkS 1 [97;98]%N). repeat split; repeat constructor; discriminate. Qed.
Print Assumptions strcmp_zero_iff_equal_refuted.

(** C16 on strings of bytes below 128: antisymmetry and transitivity. *)
Theorem strcmp_order_partial :
  forall s1 s2 s3, ascii (s_bytes s1) -> ascii (s_bytes s2) -> ascii (s_bytes s3) ->
    s_addr s1 <> s_addr s2 -> s_addr s2 <> s_addr s3 -> s_addr s1 <> s_addr s3 ->
    (mstrcmp s1 s2 < 0 <-> 0 < mstrcmp s2 s1)%Z /\
    (mstrcmp s1 s2 < 0 -> mstrcmp s2 s3 < 0 -> mstrcmp s1 s3 < 0)%Z.
Proof. exact strcmp_order. Qed.
Print Assumptions strcmp_order_partial.

Example strcmp_order_meets :
  let a := mkS 1 [97;98;99;100]%N in let b := mkS 2 [97;98;99;101]%N in let c := mkS 3 [1;2;3;4;5]%N in
  ascii (s_bytes a) /\ ascii (s_bytes b) /\ ascii (s_bytes c) /\ (mstrcmp a b < 0)%Z /\ (mstrcmp b c < 0)%Z.
Proof. repeat split; repeat constructor. Qed.

(** On arbitrary bytes the comparison is not transitive ... *)
Theorem strcmp_transitive_refuted :
  exists s1 s2 s3, bytes (s_bytes s1) /\ bytes (s_bytes s2) /\ bytes (s_bytes s3) /\
    s_addr s1 <> s_addr s2 /\ s_addr s2 <> s_addr s3 /\ s_addr s1 <> s_addr s3 /\
    (mstrcmp s1 s2 < 0)%Z /\ (mstrcmp s2 s3 < 0)%Z /\ (0 < mstrcmp s1 s3)%Z.
Proof.
  exists (mkS 1 [0;0;0;0]%N), (mkS 2 [0;0;0;96]%N), (mkS 3 [0;0;0;192]%N).
  repeat split; try discriminate; repeat constructor.
Qed.
Print Assumptions strcmp_transitive_refuted.

(** ... and not antisymmetric. *)
Theorem strcmp_antisymmetric_refuted :
  exists s1 s2, bytes (s_bytes s1) /\ bytes (s_bytes s2) /\ s_addr s1 <> s_addr s2 /\
    (mstrcmp s1 s2 < 0)%Z /\ (mstrcmp s2 s1 < 0)%Z.
Proof.
  exists (mkS 1 [0;0;0;0]%N), (mkS 2 [0;0;0;128]%N).
  repeat split; try discriminate; repeat constructor.
Qed.
Print Assumptions strcmp_antisymmetric_refuted.

(** C16, sequence comparison: equality is exact, and on non-empty strings the order is lexicographic. *)
Theorem strseqcmp_zero_iff_equal : forall a b, mstrseqcmp a b = 0%Z <-> a = b.
Proof. exact seqcmp_eq. Qed.
Print Assumptions strseqcmp_zero_iff_equal.

Theorem strseqcmp_lexicographic_partial :
  forall a b, a <> [] -> b <> [] -> ((mstrseqcmp a b < 0)%Z <-> lex_lt a b).
Proof. exact seqcmp_lex. Qed.
Print Assumptions strseqcmp_lexicographic_partial.

Example strseqcmp_meets : [1]%N <> [] /\ [1;2]%N <> [] /\ mstrseqcmp [1]%N [1;2]%N = (-1)%Z /\ lex_lt [1]%N [1;2]%N.
Proof. repeat split; try discriminate. constructor; constructor. Qed.

(** The empty string is reported greater than every other string, in both argument orders. *)
Theorem strseqcmp_antisymmetric_refuted :
  exists a b, (0 < mstrseqcmp a b)%Z /\ (0 < mstrseqcmp b a)%Z.
Proof. exists [], [1]%N. split; reflexivity. Qed.
Print Assumptions strseqcmp_antisymmetric_refuted.

(** C17: slicing terminates and returns the maximal separator-free runs; trimming removes exactly the mask prefix and
    suffix. [runs] determines the pieces uniquely. *)
Theorem slice_returns_runs :
  forall s seps, exists ps, slice s seps = Some ps /\ runs (fun c => In c seps) s ps.
Proof. exact slice_ok. Qed.
Print Assumptions slice_returns_runs.

Theorem runs_determine_pieces :
  forall seps s ps ps', runs (fun c => In c seps) s ps -> runs (fun c => In c seps) s ps' -> ps = ps'.
Proof. exact runs_in_unique. Qed.
Print Assumptions runs_determine_pieces.

Example slice_meets : slice [44;97;98;44;32;99;44]%N [44;32]%N = Some [[97;98];[99]]%N.
Proof. reflexivity. Qed.

Theorem trim_removes_mask : forall s mask, trimmed (fun c => In c mask) s (trim s mask).
Proof. exact trim_ok. Qed.
Print Assumptions trim_removes_mask.

Example trim_meets : trim [32;97;32;98;32;32]%N [32]%N = [97;32;98]%N.
Proof. reflexivity. Qed.
