(** Properties of the regular expression matcher: C50 (search) and C51 (repetition). *)
Require Import List Arith NArith ZArith Lia Bool.
Require Import Verif.Base Verif.RegexpModel Verif.RegexpSpec Verif.RegexpProofs Verif.RegexpRepProofs Verif.RegexpSearchProofs.
Import ListNotations.
Open Scope N_scope.

(** C50: an expression of characters, dots, classes and sets, with the last one possibly repeated, between an optional
    ^ and an optional $.  The call ends, and the result is negative exactly when the expression occurs nowhere in the
    text.  Missing: alternatives, groups, and repetition elsewhere (see the refutations below). *)
Theorem regexp_search_partial : forall p text fuel,
  pattern_ok p -> Forall (fun b => b < 256) text -> (length (pwritten p) + length text + 5 <= fuel)%nat ->
  exists r, reg_equal fuel (pwritten p) text = Some r /\ (-1 <= r)%Z /\ ((0 <= r)%Z <-> occurs p text).
Proof.
  intros p text fuel H Hb Hf. destruct (equal_ok p fuel H text Hb Hf) as (r & E & R). exists r. split; [exact E|].
  destruct (Z.ltb_spec r 0) as [N|N].
  - destruct R as [-> R]. split; [lia|]. split; [lia|]. intros (u & s & w & Et & L & C). exfalso. exact (R u s w Et C L).
  - split; [lia|]. split; [intros _; exact R|intros _; exact N].
Qed.
Print Assumptions regexp_search_partial.

(** x[a-c\d]\.$ in "abx3." *)
Definition pat1 : pattern :=
  mkPat false [Lit 120; Set_of true [Range 97 99; Kind Digit true]; Lit 46] None true.
Example search_case : pattern_ok pat1 /\ pwritten pat1 = [120; 91; 97; 45; 99; 92; 100; 93; 92; 46; 36] /\
  reg_equal 60 (pwritten pat1) [97; 98; 120; 51; 46] = Some 0%Z /\ occurs pat1 [97; 98; 120; 51; 46] /\
  reg_equal 60 (pwritten pat1) [97; 98; 120; 100; 46] = Some (-1)%Z.
Proof.
  split; [|split; [reflexivity|split; [vm_compute; reflexivity|split; [|vm_compute; reflexivity]]]].
  - split; [|exact I]. cbn. repeat constructor; try discriminate.
  - exists [97; 98], [120; 51; 46], []. split; [reflexivity|]. split; [|discriminate]. split; [|reflexivity].
    exists [120; 51; 46], []. split; [reflexivity|]. split; [|reflexivity]. repeat constructor.
Qed.

(** The strings stored are matches, each the leftmost and longest one in the text behind the one before. *)
Theorem regexp_match_partial : forall p text m fuel,
  pattern_ok p -> caret p = false -> Forall (fun b => b < 256) text -> (length (pwritten p) + length text + 5 <= fuel)%nat ->
  exists l, reg_match fuel (pwritten p) text m = Some (m ++ l) /\ successive p text l.
Proof. intros p text m fuel H C Hb Hf. apply match_ok; auto. lia. Qed.
Print Assumptions regexp_match_partial.

(** ba* in "xbaab": "baa" and "b" *)
Definition pat2 : pattern := mkPat false [Lit 98] (Some (Lit 97, Star)) false.
Example match_case : pattern_ok pat2 /\ pwritten pat2 = [98; 97; 42] /\
  reg_match 60 (pwritten pat2) [120; 98; 97; 97; 98] [] = Some [[98; 97; 97]] /\
  reg_match 60 (pwritten pat2) [120; 98; 97; 97; 98; 98; 99] [] = Some [[98; 97; 97]; [98]].
Proof.
  split; [|split; [reflexivity|split; vm_compute; reflexivity]]. repeat constructor.
Qed.

(** None is missed when every atom is a dot or a character written without a backslash. *)
Theorem regexp_match_all_partial : forall ps text m fuel,
  ps <> [] -> Forall wf ps -> Forall single ps -> Forall (fun b => b < 256) text ->
  (length ps + length text + 5 <= fuel)%nat ->
  reg_match fuel (pwritten (mkPat false ps None false)) text m = Some (m ++ occurrences (length text) ps text).
Proof. intros ps text m fuel Hne Hw Hs Hb Hf. apply (match_all ps Hne Hw Hs); auto. lia. Qed.
Print Assumptions regexp_match_all_partial.

(** a.c in "aacabcacc" *)
Example match_all_case :
  reg_match 60 [97; 46; 99] [97; 97; 99; 97; 98; 99; 97; 99; 99] [] = Some [[97; 97; 99]; [97; 98; 99]; [97; 99; 99]] /\
  occurrences 9 [Lit 97; Any; Lit 99] [97; 97; 99; 97; 98; 99; 97; 99; 99] = [[97; 97; 99]; [97; 98; 99]; [97; 99; 99]].
Proof. split; vm_compute; reflexivity. Qed.

(** \d\d in "1234": the second match is not stored, because less text is left than the expression is long. *)
Theorem regexp_match_all_refuted :
  exists ps text, Forall wf ps /\ reg_match 60 (pwritten (mkPat false ps None false)) text [] = Some [[49; 50]] /\
    occurrences 4 ps text = [[49; 50]; [51; 52]].
Proof.
  exists [Class Digit true; Class Digit true], [49; 50; 51; 52]. split; [repeat constructor|]. split; vm_compute; reflexivity.
Qed.
Print Assumptions regexp_match_all_refuted.

(** ^a in "baa" is not found; in "aaa" the second "a" is stored as a match although it is not at the beginning. *)
Theorem regexp_caret_refuted :
  exists text l, reg_match 60 (pwritten (mkPat true [Lit 97] None false)) text [] = Some l /\ length l = 2%nat /\
    forall u s w, text = u ++ s ++ w -> u = [] -> lang (mkPat true [Lit 97] None false) s -> s = [97].
Proof.
  exists [97; 97; 97], [[97]; [97]]. split; [vm_compute; reflexivity|]. split; [reflexivity|].
  intros u s w E -> (s1 & s2 & -> & F & R). cbn in R. subst s2. cbn [body] in F.
  inversion F as [|? b ? t Hb F']; subst. inversion F'; subst. cbn in E. injection E as -> _. reflexivity.
Qed.
Print Assumptions regexp_caret_refuted.

(** The manual says that mln_reg_equal tells whether the whole text matches, by a result that is not 0: a text equal
    to the expression gives 0, and so does one that only contains it; one without it gives -1. *)
Theorem regexp_equal_refuted :
  reg_equal 60 [97; 98] [97; 98] = Some 0%Z /\ reg_equal 60 [97; 98] [120; 97; 98; 121] = Some 0%Z /\
  reg_equal 60 [97; 98] [120; 121] = Some (-1)%Z.
Proof. repeat split; vm_compute; reflexivity. Qed.
Print Assumptions regexp_equal_refuted.

(** A byte of 128 or more in the expression does not match itself: the expression's byte is compared signed. *)
Theorem regexp_high_byte_refuted : forall c fuel, 128 <= c -> c < 256 -> (2 <= fuel)%nat ->
  reg_equal fuel [c] [c] = Some (-1)%Z.
Proof.
  intros c fuel H1 H2 Hf. destruct fuel as [|[|n]]; [lia|lia|].
  assert (E : exists k, c = 128 + N.of_nat k /\ (k < 128)%nat) by (exists (N.to_nat (c - 128)); lia).
  destruct E as (k & -> & Hk).
  assert (A : forall n, reg_equal (S (S n)) [128 + N.of_nat k] [128 + N.of_nat k] = Some (-1)%Z); [|apply A].
  clear -Hk. intros n. do 128 (destruct k as [|k]; [reflexivity|]). lia.
Qed.
Print Assumptions regexp_high_byte_refuted.

(** (a)b in "aac": there is no match, and two strings are stored, left over by the attempts that failed. *)
Theorem regexp_groups_refuted :
  reg_match 60 [40; 97; 41; 98] [97; 97; 99] [] = Some [[97]; [97]] /\
  reg_equal 60 [40; 97; 41; 98] [97; 97; 99] = Some (-1)%Z.
Proof. split; vm_compute; reflexivity. Qed.
Print Assumptions regexp_groups_refuted.

(** ab|cd: the bar joins the two characters beside it, so that neither "ab" nor "cd" matches, and "abd" does. *)
Theorem regexp_alternative_refuted :
  reg_equal 60 [97; 98; 124; 99; 100] [97; 98] = Some (-1)%Z /\ reg_equal 60 [97; 98; 124; 99; 100] [99; 100] = Some (-1)%Z /\
  reg_equal 60 [97; 98; 124; 99; 100] [97; 98; 100] = Some 0%Z.
Proof. repeat split; vm_compute; reflexivity. Qed.
Print Assumptions regexp_alternative_refuted.

(** [.] between square brackets the operators are skipped: a set of a dot does not match a dot, it matches where the
    text ends. *)
Theorem regexp_set_refuted :
  reg_equal 60 [94; 91; 46; 93] [46] = Some (-1)%Z /\ reg_equal 60 [91; 46; 93] [97] = Some 0%Z.
Proof. split; vm_compute; reflexivity. Qed.
Print Assumptions regexp_set_refuted.
