(** Proofs about the ASN.1 encoder. *)
Require Import List Arith NArith ZArith Lia Bool Permutation Sorted.
Require Import ZifyBool ZifyNat ZifyN.
Import ListNotations.
Require Import Verif.Base Verif.Sweep Verif.EndianSpec Verif.EndianProofs Verif.CalModel Verif.CalSpec Verif.CalProofs.
Require Import Verif.Asn1Model Verif.Asn1Spec Verif.Asn1Proofs.
Local Open Scope N_scope.

Lemma concat_snoc_len (l : list (list N)) s :
  N.of_nat (length (concat (l ++ [s]))) = N.of_nat (length (concat l)) + N.of_nat (length s).
Proof. rewrite concat_app, app_length. cbn [concat]. rewrite app_nil_r. lia. Qed.

Lemma tlv_len tag (content : list N) :
  N.of_nat (length content) + 2 <= N.of_nat (length (tag :: length_octets (N.of_nat (length content)) ++ content)) <= N.of_nat (length content) + 10.
Proof.
  cbn [length]. rewrite app_length. pose proof (octets_length (N.of_nat (length content))). lia.
Qed.

Lemma calc_len n tag content : n = N.of_nat (length content) -> n < 2 ^ 63 ->
  length_calc n = N.of_nat (length (tag :: length_octets n ++ content)).
Proof.
  intros E H. rewrite calc_size by auto. cbn [length]. rewrite app_length, fill_octets by (clear - H; lia).
  subst n. lia.
Qed.

Lemma encode_prim_ok r d content :
  holds_elements r -> esize r + N.of_nat (length content) + 40 < 2 ^ 63 ->
  exists r', encode_prim r d content = Some r' /\ holds_elements r' /\
    esize r' <= esize r + N.of_nat (length content) + 40 /\
    ecls r' = ecls r /\ estr r' = estr r /\ eidn r' = eidn r /\
    econts r' = econts r ++ [tag_byte r (estr r) d :: length_octets (N.of_nat (length content)) ++ content].
Proof.
  intros [R1 R2] B. unfold encode_prim.
  rewrite fill_ok by (auto; clear - B; lia). cbn [obind].
  set (tag := tag_byte r (estr r) d). pose proof (tlv_len tag content) as TL.
  rewrite (calc_len _ tag content) by (auto; clear - B; lia).
  set (s := tag :: length_octets (N.of_nat (length content)) ++ content) in *.
  eexists. split; [reflexivity|]. unfold holds_elements. cbn [esize econts ecls estr eidn].
  rewrite N.mod_small by (clearbody s; clear - B TL; lia).
  split; [split|].
  - rewrite concat_snoc_len. f_equal. exact R1.
  - apply Forall_app. split; auto. constructor; [|constructor]. exists tag, content. reflexivity.
  - split; [clearbody s; clear - TL; lia|]. auto.
Qed.

Lemma encode_null_ok r : holds_elements r -> esize r + 40 < 2 ^ 63 ->
  exists r', encode_null r = Some r' /\ holds_elements r' /\ esize r' <= esize r + 40 /\
    econts r' = econts r ++ [[tag_byte r (estr r) 5; 0]].
Proof.
  intros [R1 R2] B. unfold encode_null. eexists. split; [reflexivity|].
  unfold holds_elements. cbn [esize econts]. rewrite N.mod_small by (clear - B; lia).
  split; [split|].
  - rewrite concat_snoc_len. cbn [length]. lia.
  - apply Forall_app. split; auto. constructor; [|constructor].
    exists (tag_byte r (estr r) 5), []. reflexivity.
  - split; [lia|reflexivity].
Qed.

Lemma perm_concat_len (l l' : list (list N)) : Permutation l l' -> length (concat l) = length (concat l').
Proof.
  induction 1; cbn [concat]; rewrite ?app_length; lia.
Qed.

Lemma wrap_ok r d parts : holds_elements r -> esize r + 40 < 2 ^ 63 -> Permutation parts (econts r) ->
  exists r', wrap r d parts = Some r' /\ holds_elements r' /\ esize r' <= esize r + 40 /\
    econts r' = [tag_byte r true d :: length_octets (N.of_nat (length (concat parts))) ++ concat parts].
Proof.
  intros [R1 R2] B P. apply perm_concat_len in P. unfold wrap.
  assert (E : esize r = N.of_nat (length (concat parts))) by lia.
  rewrite fill_ok by (auto; clear - B; lia). cbn [obind].
  set (tag := tag_byte r true d). pose proof (tlv_len tag (concat parts)) as TL.
  rewrite (calc_len _ tag (concat parts)) by (auto; clear - B; lia).
  rewrite E. eexists. split; [reflexivity|]. unfold holds_elements. cbn [esize econts concat].
  rewrite app_nil_r. split; [split; [reflexivity|]|].
  - constructor; [|constructor]. exists tag, (concat parts). reflexivity.
  - split; [|reflexivity]. etransitivity; [apply TL|]. clear; lia.
Qed.

(** * Sorting *)

Section Sorting.
  Variable le : list N -> list N -> bool.
  Lemma insert_perm x l : Permutation (insert_by le x l) (x :: l).
  Proof.
    induction l as [|y l IH]; cbn [insert_by]; [auto|]. destruct (le x y); auto.
    rewrite IH. apply perm_swap.
  Qed.
  Lemma sort_perm l : Permutation (sort_by le l) l.
  Proof. induction l as [|x l IH]; cbn [sort_by]; [auto|]. rewrite insert_perm, IH. auto. Qed.
  Hypothesis total : forall a b, le a b = true \/ le b a = true.
  Lemma insert_sorted x l : Sorted (fun a b => le a b = true) l -> Sorted (fun a b => le a b = true) (insert_by le x l).
  Proof.
    induction 1 as [|y l S IH H]; cbn [insert_by]; [repeat constructor|].
    destruct (le x y) eqn:E; [repeat (constructor; auto)|].
    constructor; auto. destruct (total x y) as [T|T]; [congruence|].
    destruct l as [|z l]; cbn [insert_by]; [constructor; auto|]. inversion H; subst.
    destruct (le x z); constructor; auto.
  Qed.
  Lemma sort_sorted l : Sorted (fun a b => le a b = true) (sort_by le l).
  Proof. induction l; cbn [sort_by]; [constructor|]. apply insert_sorted; auto. Qed.
  Hypothesis trans : forall a b c, le a b = true -> le b c = true -> le a c = true.
  Hypothesis antisym : forall a b, le a b = true -> le b a = true -> a = b.
  Lemma insert_comm x y l : insert_by le x (insert_by le y l) = insert_by le y (insert_by le x l).
  Proof.
    induction l as [|z l IH]; cbn [insert_by].
    - destruct (le x y) eqn:A, (le y x) eqn:B; auto.
      + rewrite (antisym x y); auto.
      + destruct (total x y); congruence.
    - destruct (le y z) eqn:A, (le x z) eqn:B; cbn [insert_by]; rewrite ?A, ?B.
      + destruct (le x y) eqn:C, (le y x) eqn:D; auto.
        * rewrite (antisym x y); auto.
        * destruct (total x y); congruence.
      + destruct (le x y) eqn:C; [rewrite (trans x y z) in B by auto; discriminate|]. reflexivity.
      + destruct (le y x) eqn:C; [rewrite (trans y x z) in A by auto; discriminate|]. reflexivity.
      + f_equal. exact IH.
  Qed.
  Lemma sort_canonical l l' : Permutation l l' -> sort_by le l = sort_by le l'.
  Proof.
    induction 1; cbn [sort_by]; auto; try congruence. apply insert_comm.
  Qed.
End Sorting.

Lemma setof_total a : forall b, setof_le a b = true \/ setof_le b a = true.
Proof.
  induction a as [|x a IH]; intros [|y b]; cbn [setof_le]; auto.
  rewrite (N.eqb_sym y x). destruct (N.eqb_spec x y); auto. lia.
Qed.
Lemma setof_trans a : forall b c, setof_le a b = true -> setof_le b c = true -> setof_le a c = true.
Proof.
  induction a as [|x a IH]; intros [|y b] [|z c]; cbn [setof_le]; auto; try discriminate.
  destruct (N.eqb_spec x y), (N.eqb_spec y z), (N.eqb_spec x z); subst; eauto; lia.
Qed.
Lemma setof_antisym a : forall b, setof_le a b = true -> setof_le b a = true -> a = b.
Proof.
  induction a as [|x a IH]; intros [|y b]; cbn [setof_le]; auto; try discriminate.
  rewrite (N.eqb_sym y x). destruct (N.eqb_spec x y); [|lia]. subst. intros. f_equal; auto.
Qed.
Lemma set_total a b : set_le a b = true \/ set_le b a = true.
Proof. unfold set_le. lia. Qed.

(** * Histories *)

Lemma implicit_ok r ident i : holds_elements r ->
  exists f r', encode_implicit r ident i = Some (f, r') /\ holds_elements r' /\ esize r' = esize r.
Proof.
  intros [R1 R2]. unfold encode_implicit. destruct (nth_error (econts r) i) as [s|] eqn:E.
  - assert (T : is_tlv s) by (rewrite Forall_forall in R2; apply R2; eapply nth_error_In; eauto).
    destruct T as (tag & content & ->).
    eexists _, _. split; [reflexivity|]. unfold holds_elements. cbn [esize econts].
    split; [|reflexivity]. split.
    + rewrite R1. f_equal. clear - E. revert i E. induction (econts r) as [|x l IH]; intros [|i] E; try discriminate.
      * cbn in E. injection E as ->. cbn [upd concat]. rewrite !app_length. reflexivity.
      * cbn in E. cbn [upd concat]. rewrite !app_length. f_equal. eauto.
    + apply Forall_forall. intros s S. apply In_nth_error in S. destruct S as [j J].
      rewrite nth_error_upd in J. destruct (Nat.eqb i j).
      * destruct (Nat.ltb i (length (econts r))); [|discriminate]. injection J as <-. eexists _, content. reflexivity.
      * rewrite Forall_forall in R2. apply R2. eapply nth_error_In; eauto.
  - exists false, r. split; [reflexivity|]. split; [split; auto|reflexivity].
Qed.

Lemma bits_prim r bits n : n <= 8 * N.of_nat (length bits) ->
  exists unused data, encode_bitstring r bits n = encode_prim r 3 (unused :: data) /\
    (length data <= length bits)%nat.
Proof.
  intros H. unfold encode_bitstring. cbv zeta.
  set (m := N.to_nat _). assert (M : (m <= length bits)%nat).
  { unfold m. rewrite N.shiftr_div_pow2. change (2 ^ 3) with 8. clear - H.
    destruct (N.eqb_spec (n mod 8) 0); lia. }
  destruct (Nat.ltb_spec (length bits) m) as [C|_]; [lia|].
  eexists _, _. split; [reflexivity|].
  destruct (n mod 8 =? 0); rewrite ?upd_length, firstn_length; lia.
Qed.

Lemma astep_ok r o : holds_elements r -> aop_ok o -> esize r + aop_cost o < 2 ^ 63 ->
  exists r', astep r o = Some r' /\ holds_elements r' /\ esize r' <= esize r + aop_cost o.
Proof.
  intros R O B.
  assert (P : forall d l, esize r + (N.of_nat (length l) + 40) < 2 ^ 63 ->
    exists r', encode_prim r d l = Some r' /\ holds_elements r' /\ esize r' <= esize r + (N.of_nat (length l) + 40)).
  { intros d l L. destruct (encode_prim_ok r d l R) as (r' & E & H & S & _); [clear - L; lia|].
    exists r'. split; [auto|]. split; [auto|]. clear - S; lia. }
  assert (P40 : forall d l, (length l <= 20)%nat -> esize r + 40 < 2 ^ 63 ->
    exists r', encode_prim r d l = Some r' /\ holds_elements r' /\ esize r' <= esize r + 40).
  { clear P. intros d l L C. destruct R as [R1 R2]. unfold encode_prim.
    rewrite fill_ok by (auto; clear - L C; lia). cbn [obind].
    set (tag := tag_byte r (estr r) d). pose proof (tlv_len tag l) as TL.
    rewrite (calc_len _ tag l) by (auto; clear - L C; lia).
    set (s := tag :: length_octets (N.of_nat (length l)) ++ l) in *.
    eexists. split; [reflexivity|]. unfold holds_elements. cbn [esize econts].
    rewrite N.mod_small by (clearbody s; clear - TL L C; lia).
    split; [split|].
    - rewrite concat_snoc_len. f_equal. exact R1.
    - apply Forall_app. split; auto. constructor; [|constructor]. exists tag, l. reflexivity.
    - clearbody s; clear - TL L; lia. }
  assert (W : forall d parts, esize r + 40 < 2 ^ 63 -> Permutation parts (econts r) ->
    exists r', wrap r d parts = Some r' /\ holds_elements r' /\ esize r' <= esize r + 40).
  { intros d parts C Q. destruct (wrap_ok r d parts R C Q) as (r' & E & H & S & _). eauto. }
  assert (Z : forall r', esize r' = esize r -> econts r' = econts r -> holds_elements r' /\ esize r' <= esize r + 40).
  { intros r' E1 E2. unfold holds_elements. rewrite E1, E2. split; [exact R|clear; lia]. }
  destruct o; cbn [astep aop_cost aop_ok] in *.
  - apply P40; auto. cbn; lia.
  - apply P; auto.
  - destruct (bits_prim r bits nbits O) as (u & d & E & L). rewrite E.
    destruct R as [R1 R2]. unfold encode_prim.
    rewrite fill_ok by (auto; cbn [length]; clear - L B; lia). cbn [obind].
    set (tag := tag_byte r (estr r) 3). pose proof (tlv_len tag (u :: d)) as TL. cbn [length] in TL |- *.
    rewrite (calc_len _ tag (u :: d)) by (auto; clear - L B; lia).
    cbn [length] in *.
    set (s := tag :: length_octets (N.of_nat (S (length d))) ++ u :: d) in *.
    eexists. split; [reflexivity|]. unfold holds_elements. cbn [esize econts].
    change (S (length (length_octets (N.of_nat (S (length d))) ++ u :: d))) with (length s) in *.
    rewrite N.mod_small by (clearbody s; clear - TL L B; lia).
    split; [split|].
    + rewrite concat_snoc_len. f_equal. exact R1.
    + apply Forall_app. split; auto. constructor; [|constructor]. exists tag, (u :: d). reflexivity.
    + clearbody s; clear - TL L; lia.
  - apply P; auto.
  - destruct (encode_null_ok r R B) as (r' & E & H & S & _). eauto.
  - apply P; auto.
  - apply P; auto.
  - unfold encode_printablestring. destruct (forallb _ l).
    + destruct (P 19 l B) as (r' & E & H & S). rewrite E. exists r'. auto.
    + exists r. split; [reflexivity|]. split; [exact R|]. clear; lia.
  - apply P; auto.
  - apply P; auto.
  - unfold encode_utctime. destruct (time2utc_main t O) as (u & -> & _). cbn [obind].
    apply P40; auto. cbn; lia.
  - unfold encode_generalized_time. destruct (time2utc_main t O) as (u & -> & _). cbn [obind].
    apply P40; auto. cbn; lia.
  - apply W; auto.
  - apply W; auto. apply sort_perm.
  - apply W; auto. apply sort_perm.
  - eexists; split; [reflexivity|]. apply Z; reflexivity.
  - eexists; split; [reflexivity|]. destruct b; apply Z; reflexivity.
  - eexists; split; [reflexivity|]. apply Z; reflexivity.
  - eexists; split; [reflexivity|]. destruct R as [R1 R2], O as [O1 O2]. unfold holds_elements, encode_merge.
    cbn [esize econts]. rewrite N.mod_small by (clear - B; lia).
    split; [split|clear; lia]; [|apply Forall_app; auto].
    rewrite concat_app, app_length, R1, O1. clear. lia.
  - destruct (implicit_ok r ident i R) as (f & r' & E & H & S). rewrite E. exists r'. split; [reflexivity|].
    split; [auto|]. rewrite S. clear; lia.
  - eexists; split; [reflexivity|]. unfold holds_elements. cbn [trans_chain_once snd esize econts concat length].
    split; [split; [reflexivity|constructor]|]. clear; lia.
Qed.

Theorem arun_ok : forall ops r, holds_elements r -> Forall aop_ok ops -> esize r + total_cost ops < 2 ^ 63 ->
  exists r', arun r ops = Some r' /\ holds_elements r'.
Proof.
  induction ops as [|o ops IH]; intros r R O B; [exists r; auto|].
  inversion O; subst. cbn [arun]. unfold total_cost in B; cbn [fold_right] in B. fold (total_cost ops) in B.
  destruct (astep_ok r o R H1) as (r' & E & H & S); [clear - B; lia|]. rewrite E.
  apply IH; auto. clear - B S. lia.
Qed.

(** * Building a tree *)

Definition build_all : list elem -> enres -> option enres :=
  fix go (ks : list elem) (acc : enres) : option enres :=
    match ks with
    | [] => Some acc
    | k :: ks' => match build k with Some r => go ks' (encode_merge acc r) | None => None end
    end.

Lemma ident_small i r : i < 32 -> eidn (ident_set r i) = i /\ (eidn (ident_set r i) =? ID_NONE) = false.
Proof.
  intros H. cbn [ident_set eidn]. rewrite N.mod_small by (clear - H; lia). split; [reflexivity|].
  apply N.eqb_neq. unfold ID_NONE. clear - H. lia.
Qed.

Theorem build_ok e : wf e -> N.of_nat (length (der e)) < 2 ^ 62 ->
  exists r, build e = Some r /\ econts r = [der e] /\ holds_elements r.
Proof.
  induction e as [c i content|c i kids IH] using elem_ind2; intros W S.
  - inversion W; subst. cbn [build der] in *. unfold encode_octetstring.
    set (r0 := ident_set (class_set en_init c) i).
    pose proof (der_len c false i content) as DL.
    destruct (encode_prim_ok r0 4 content) as (r & E & H & _ & _ & _ & _ & C).
    { split; [reflexivity|constructor]. }
    { cbn. clear - S DL. lia. }
    exists r. split; [exact E|]. split; [|exact H]. rewrite C. cbn [app econts r0 ident_set class_set en_init].
    f_equal. unfold tlv. f_equal. unfold tag_byte. destruct (ident_small i (class_set en_init c) H3) as [E1 E2].
    fold r0 in E1, E2. rewrite E2, E1. cbn [ecls estr r0 ident_set class_set en_init].
    rewrite N.mod_small by auto. apply (tag_make c false i); auto.
  - inversion W; subst. cbn [der] in S. pose proof (der_len c true i (flat_map der kids)) as DL.
    assert (G : forall ks acc, Forall (fun e => wf e -> N.of_nat (length (der e)) < 2 ^ 62 ->
        exists r, build e = Some r /\ econts r = [der e] /\ holds_elements r) ks -> Forall wf ks ->
      holds_elements acc -> esize acc + N.of_nat (length (flat_map der ks)) < 2 ^ 62 ->
      exists r, build_all ks acc = Some r /\ econts r = econts acc ++ map der ks /\ holds_elements r).
    { clear. induction ks as [|k ks IHk]; intros acc F WF A B.
      - exists acc. split; [reflexivity|]. split; [cbn; rewrite app_nil_r; auto|auto].
      - inversion F; subst. inversion WF; subst. cbn [flat_map] in B. rewrite app_length in B.
        destruct (H1 H3) as (r & E & C & R); [clear - B; lia|].
        cbn [build_all]. rewrite E. destruct A as [A1 A2]. pose proof R as [R1 R2].
        assert (ES : esize r = N.of_nat (length (der k))).
        { rewrite R1, C. cbn [concat]. rewrite app_nil_r. reflexivity. }
        assert (EM : esize (encode_merge acc r) = esize acc + N.of_nat (length (der k))).
        { cbn [encode_merge esize]. rewrite ES. apply N.mod_small. clear - B. lia. }
        destruct (IHk (encode_merge acc r)) as (r' & E' & C' & R'); auto.
        + split.
          * rewrite EM. cbn [encode_merge econts]. rewrite concat_app, app_length, C. cbn [concat].
            rewrite app_nil_r, A1. clear. lia.
          * cbn [encode_merge econts]. apply Forall_app. auto.
        + rewrite EM. clear - B. lia.
        + exists r'. split; [exact E'|]. split; [|auto]. rewrite C'. cbn [encode_merge econts map].
          rewrite C, <- app_assoc. reflexivity. }
    destruct (G kids en_init) as (r & E & C & R); auto.
    { split; [reflexivity|constructor]. }
    { cbn [esize en_init]. clear - S DL. lia. }
    change (build (Cons c i kids)) with
      (match build_all kids en_init with Some r => encode_sequence (ident_set (class_set r c) i) | None => None end).
    rewrite E. cbn [app econts en_init] in C. unfold encode_sequence.
    set (r0 := ident_set (class_set r c) i).
    assert (C0 : econts r0 = map der kids) by exact C.
    assert (FM : concat (econts r0) = flat_map der kids) by (rewrite C0; symmetry; apply flat_map_concat_map).
    assert (S0 : esize r0 = N.of_nat (length (flat_map der kids))).
    { destruct R as [R1 _]. change (esize r0) with (esize r). rewrite R1. change (econts r) with (econts r0). rewrite FM. reflexivity. }
    destruct (wrap_ok r0 16 (econts r0)) as (r' & E' & H & _ & C').
    { exact R. }
    { rewrite S0. clear - S DL. lia. }
    { apply Permutation_refl. }
    exists r'. split; [exact E'|]. split; [|exact H]. rewrite C', FM. f_equal. cbn [der]. unfold tlv. f_equal.
    unfold tag_byte. destruct (ident_small i (class_set r c) H3) as [E1 E2].
    fold r0 in E1, E2. rewrite E2, E1. cbn [ecls estr r0 ident_set class_set].
    rewrite N.mod_small by auto. apply (tag_make c true i); auto.
Qed.

(** * Bit strings *)

Lemma mask_low x u : x < 256 -> 0 < u < 8 -> forall j,
  j < 8 -> N.testbit (N.land (N.shiftl (N.land (N.shiftr x u) 255) u) 255) j = (u <=? j) && N.testbit x j.
Proof.
  intros X U j J. change 255 with (N.ones 8).
  rewrite N.land_spec. rewrite N.ones_spec_low by exact J. rewrite andb_true_r.
  destruct (N.leb_spec u j) as [C|C].
  - rewrite N.shiftl_spec_high' by exact C. rewrite N.land_spec, N.shiftr_spec', N.ones_spec_low by (clear - J; lia).
    rewrite N.sub_add by exact C. cbn [andb]. apply andb_true_r.
  - rewrite N.shiftl_spec_low by exact C. reflexivity.
Qed.

Lemma forall_firstn {A} (P : A -> Prop) l : Forall P l -> forall m, Forall P (firstn m l).
Proof. induction 1; intros [|m]; cbn [firstn]; auto. Qed.

Theorem bitstring_ok r bits n : Forall isb bits -> n <= 8 * N.of_nat (length bits) ->
  exists unused data, encode_bitstring r bits n = encode_prim r 3 (unused :: data) /\
    unused < 8 /\ n + unused = 8 * N.of_nat (length data) /\ Forall isb data /\
    (forall i, i < n -> bit_at data i = bit_at bits i) /\
    (forall i, n <= i < n + unused -> bit_at data i = false).
Proof.
  intros Bb H. unfold encode_bitstring. cbv zeta. rewrite N.shiftr_div_pow2. change (2 ^ 3) with 8.
  set (bytes := 1 + _). set (m := N.to_nat (bytes - 1)).
  assert (M : N.of_nat m = (n + 7) / 8).
  { unfold m, bytes. clear. destruct (N.eqb_spec (n mod 8) 0); lia. }
  assert (L : (m <= length bits)%nat) by (clear - M H; lia).
  destruct (Nat.ltb_spec (length bits) m) as [C|_]; [lia|].
  destruct (N.eqb_spec (n mod 8) 0) as [Z|Z].
  - eexists _, _. split; [reflexivity|]. split; [lia|].
    rewrite firstn_length, Nat.min_l by exact L. split; [clear - M Z; lia|].
    split; [apply forall_firstn; exact Bb|].
    split; [|intros i I; clear - I; lia].
    intros i I. unfold bit_at. f_equal. rewrite <- (firstn_skipn m bits) at 2. rewrite app_nth1; [reflexivity|].
    rewrite firstn_length, Nat.min_l by exact L. clear - M I Z. lia.
  - assert (M0 : (0 < m)%nat) by (clear - M Z; lia).
    assert (FB : Forall isb (firstn m bits)).
    { apply forall_firstn; exact Bb. }
    assert (FLen : length (firstn m bits) = m) by (rewrite firstn_length, Nat.min_l; auto).
    assert (NB : forall k, (k < m)%nat -> nth k (firstn m bits) 0 = nth k bits 0).
    { intros k K. rewrite <- (firstn_skipn m bits) at 2. rewrite app_nth1 by lia. reflexivity. }
    set (f := firstn m bits) in *. clearbody f.
    eexists _, _. split; [reflexivity|]. set (u := 8 - n mod 8).
    assert (U : 0 < u < 8) by (unfold u; clear - Z; lia).
    split; [clear - U; lia|]. rewrite upd_length, FLen. split; [unfold u; clear - M Z; lia|].
    assert (LB : isb (nth (m - 1) f 0)).
    { rewrite Forall_forall in FB. apply FB. apply nth_In. lia. }
    set (x := nth (m - 1) f 0) in *.
    set (y := N.land (N.shiftl (N.land (N.shiftr x u) 255) u) 255).
    split.
    { apply Forall_forall. intros b I. apply In_nth_error in I. destruct I as [j J]. rewrite nth_error_upd in J.
      destruct (Nat.eqb (m - 1) j).
      - destruct (Nat.ltb (m - 1) (length f)); [|discriminate]. injection J as <-. unfold y, isb.
        change 255 with (N.ones 8). rewrite N.land_ones. apply N.mod_lt. discriminate.
      - rewrite Forall_forall in FB. apply FB. eapply nth_error_In; eauto. }
    split.
    + intros i I. unfold bit_at. destruct (Nat.eq_dec (N.to_nat (i / 8)) (m - 1)) as [E|E].
      * rewrite E, nth_upd_eq by lia. unfold y. rewrite mask_low; auto; [|clear; lia].
        unfold x. rewrite NB by lia.
        destruct (N.leb_spec u (7 - i mod 8)) as [_|C]; [reflexivity|].
        exfalso. unfold u in C. clear - E I M M0 Z C. lia.
      * rewrite nth_upd_neq by (intros Q; apply E; symmetry; exact Q). rewrite NB; [reflexivity|]. clear - M I. lia.
    + intros i I. unfold bit_at.
      assert (E : N.to_nat (i / 8) = (m - 1)%nat) by (unfold u in I; clear - I M M0 Z; lia).
      rewrite E, nth_upd_eq by lia. unfold y. rewrite mask_low; auto; [|clear; lia].
      destruct (N.leb_spec u (7 - i mod 8)) as [C|C]; [|reflexivity].
      exfalso. unfold u in *. clear - E I M M0 Z C. lia.
Qed.

(** * Times *)

Lemma two_digits_spec x : (0 <= x < 100)%Z -> two_digits x = digits2 x.
Proof.
  intros H. unfold two_digits, digits2, chr, digit.
  rewrite !(Z.mod_small _ 256) by (clear - H; lia). repeat (f_equal; try lia).
Qed.

Lemma time2utc_range t : (0 <= t)%Z -> exists u, time2utc t = Some u /\ utc2time u = Some t /\ in_range u /\ (1970 <= year u)%Z.
Proof.
  intros T. destruct (time2utc_def t T) as (y & m & d & V & D & E).
  destruct (time_utc_time t T) as (u & E' & R). rewrite E in E'. injection E' as <-.
  eexists. split; [exact E|]. split; [exact R|]. unfold in_range. cbn.
  destruct V as (V1 & V2 & V3). pose proof (hms (t mod 86400) (Z.mod_pos_bound t 86400 ltac:(lia))). intuition.
Qed.

Lemma field_bounds u : in_range u ->
  (0 <= month u < 100 /\ 0 <= day u < 100 /\ 0 <= hour u < 100 /\ 0 <= minute u < 100 /\ 0 <= second u < 100)%Z.
Proof.
  intros (M & D & H & Mi & S). assert (day u <= 31)%Z; [|lia].
  destruct D as [_ D]. unfold days_in_month in D. repeat match type of D with context[if ?b then _ else _] => destruct b end; lia.
Qed.

Theorem utctime_ok r t u : (0 <= t)%Z -> time2utc t = Some u -> (year u <= 2049)%Z -> (year u <> 2000)%Z ->
  encode_utctime r t = encode_prim r 23 (time_text false u 90) /\
  s2time (time_text false u 90) false = Some (S2Ok t).
Proof.
  intros T E Y Y'. destruct (time2utc_range t T) as (v & E' & R & I & L).
  rewrite E in E'. injection E' as <-. split.
  - unfold encode_utctime. rewrite E. cbn [obind]. f_equal. unfold time_text.
    pose proof (field_bounds u I) as B.
    rewrite !two_digits_spec; try (clear - B; lia).
    + f_equal. f_equal. destruct (Z.ltb_spec 2000 (year u)); clear - Y Y' L H; lia.
    + destruct (Z.ltb_spec 2000 (year u)); clear - Y Y' L H; lia.
  - destruct (s2time_text false u 90) as (t' & E' & S); auto; [split; cbn; lia|]. congruence.
Qed.

Theorem gentime_ok r t u : (0 <= t)%Z -> time2utc t = Some u -> (year u <= 9999)%Z ->
  encode_generalized_time r t = encode_prim r 24 (time_text true u 90) /\
  s2time (time_text true u 90) true = Some (S2Ok t).
Proof.
  intros T E Y. destruct (time2utc_range t T) as (v & E' & R & I & L).
  rewrite E in E'. injection E' as <-. split.
  - unfold encode_generalized_time. rewrite E. cbn [obind]. f_equal. unfold time_text.
    pose proof (field_bounds u I) as B.
    rewrite !two_digits_spec; try (clear - B; lia). unfold digits4.
    rewrite <- !two_digits_spec; try (clear - B L Y; lia). unfold two_digits. cbn [app].
    assert (Q1 : (year u / 100 / 10 = year u / 1000)%Z) by (clear - L Y; lia).
    assert (Q2 : ((year u / 100) mod 10 = year u mod 1000 / 100)%Z) by (clear - L Y; lia).
    assert (Q3 : ((year u mod 100) mod 10 = year u mod 10)%Z) by (clear - L Y; lia).
    rewrite Q1, Q2, Q3. reflexivity.
  - destruct (s2time_text true u 90) as (t' & E' & S); auto; [split; cbn; lia|]. congruence.
Qed.

(** * Primitive elements *)

Theorem primitive_ok r o u content : primitive o = Some (u, content) -> holds_elements r ->
  ecls r < 4 -> ident_of r u < 32 -> esize r + N.of_nat (length content) + 40 < 2 ^ 63 ->
  exists r', astep r o = Some r' /\ holds_elements r' /\
    econts r' = econts r ++ [tlv (ecls r) (estr r) (ident_of r u) content].
Proof.
  intros P R C I B.
  assert (T : forall d, ident_of r d < 32 -> tag_byte r (estr r) d = ecls r * 64 + (if estr r then 32 else 0) + ident_of r d).
  { intros d D. unfold tag_byte. rewrite <- tag_make by auto. f_equal. unfold ident_of in *.
    destruct (N.eqb_spec (eidn r) ID_NONE); [|reflexivity].
    change 31 with (N.ones 5). rewrite N.land_ones. symmetry. apply N.mod_small. exact D. }
  assert (G : forall d l, d = u -> l = content -> exists r', encode_prim r d l = Some r' /\ holds_elements r' /\
    econts r' = econts r ++ [tlv (ecls r) (estr r) (ident_of r u) content]).
  { intros d l -> ->. destruct (encode_prim_ok r u content R B) as (r' & E & H & _ & _ & _ & _ & S).
    exists r'. split; [auto|]. split; [auto|]. rewrite S, T by auto. reflexivity. }
  destruct o; cbn [primitive] in P; try discriminate; cbn [astep];
    try (injection P as <- <-; apply G; reflexivity).
  - injection P as <- <-. destruct (encode_null_ok r R) as (r' & E & H & _ & S).
    { cbn [length] in B. clear - B. lia. }
    exists r'. split; [auto|]. split; [auto|]. rewrite S, T by auto. reflexivity.
  - unfold encode_printablestring. destruct (forallb _ l); [|discriminate]. injection P as <- <-.
    destruct (G 19 l eq_refl eq_refl) as (r' & E & H). rewrite E. exists r'. auto.
Qed.

Theorem implicit_tag r c con i content ident k : c < 4 -> i < 32 -> ident < 32 ->
  nth_error (econts r) k = Some (tlv c con i content) ->
  encode_implicit r ident k = Some (true, E (ecls r) (estr r) (eidn r) (esize r) (upd (econts r) k (tlv 2 con ident content))).
Proof.
  intros C I D N. unfold encode_implicit. rewrite N. unfold tlv. cbv zeta. do 4 f_equal. f_equal.
  clear N.
  assert (A : N.land (c * 64 + (if con then 32 else 0) + i) 32 = if con then 32 else 0).
  { apply N.bits_inj. intros n. rewrite N.land_spec. change 32 with (2 ^ 5) at 2. rewrite N.pow2_bits_eqb.
    destruct (tag_parts c con i C I) as (B1 & _ & _ & B2). cbv zeta in B1, B2.
    destruct (N.eqb_spec 5 n) as [<-|Q].
    - rewrite andb_true_r. destruct (tag_bits _ B1) as (_ & _ & ->). rewrite B2. destruct con; reflexivity.
    - rewrite andb_false_r. destruct con; [|now rewrite N.bits_0].
      change 32 with (2 ^ 5). rewrite N.pow2_bits_eqb. symmetry. apply N.eqb_neq. exact Q. }
  rewrite A.
  assert (X : N.lor 128 ident = 128 + ident).
  { apply (lor_add 128 ident 7); [clear - D; change (2 ^ 7) with 128; lia|reflexivity]. }
  rewrite X. destruct con.
  - assert (Y : N.lor 32 (128 + ident) = 2 * 64 + 32 + ident).
    { rewrite <- X. rewrite N.lor_assoc. apply (lor_add (N.lor 32 128) ident 5); [exact D|reflexivity]. }
    rewrite Y. apply N.mod_small. clear - D. lia.
  - rewrite N.lor_0_l. apply N.mod_small. clear - D. lia.
Qed.
