(** Whole expressions: the longest match at a place, the search for it, and the list of matches. *)
Require Import List Arith NArith ZArith Lia Bool.
Require Import ZifyBool ZifyNat ZifyN.
Require Import Verif.Base Verif.RegexpModel Verif.RegexpSpec Verif.RegexpProofs Verif.RegexpRepProofs.
Import ListNotations.
Open Scope N_scope.

Definition tail_res (p : pattern) (text : list N) : option (list N) :=
  match rep p with Some (a, o) => rep_res a o (dollar p) text | None => dollar_res (dollar p) text end.
Definition result (p : pattern) : list N -> option (list N) := after_seq (body p) (tail_res p).
Definition core (p : pattern) : list N :=
  seq (body p) ++ match rep p with Some (a, o) => written a ++ op_written o ++ dl (dollar p) | None => dl (dollar p) end.
Lemma pwritten_core p : pwritten p = (if caret p then [94] else []) ++ core p.
Proof. unfold pwritten, core, seq, dl. destruct (rep p) as [[a o]|]; rewrite <- ?app_assoc; reflexivity. Qed.

Lemma core_tail_inert p : pattern_ok p ->
  inert F_none (match rep p with Some (a, o) => written a ++ op_written o ++ dl (dollar p) | None => dl (dollar p) end).
Proof.
  intros [_ H]. destruct (rep p) as [[a o]|].
  - pose proof (inert_seq F_none [] []) as _. right. cbv zeta. assert (Ha : wf a) by apply H.
    pose proof (get_bounds F_none a (op_written o ++ dl (dollar p)) Ha) as G. cbn [f_square F_none].
    destruct a as [c| |k i|i ms].
    + destruct G as [-> G]. unfold STAR, QUES, PLUS, LBRACE, OR. repeat split; try lia; discriminate.
    + rewrite G. repeat split; discriminate.
    + rewrite G. destruct k, i; repeat split; discriminate.
    + rewrite G. repeat split; discriminate.
  - destruct (dollar p); [right|left; reflexivity]. repeat split; discriminate.
Qed.
Lemma core_ok p : pattern_ok p -> computes (core p) 4 (result p).
Proof.
  intros H. unfold core, result. apply seq_ok; [apply H|lia|apply core_tail_inert; exact H|].
  destruct H as [_ H]. unfold tail_res. destruct (rep p) as [[a o]|].
  - apply rep_ok; exact H.
  - intros n f text m Hf Hb Hn. apply dl_ok; auto. lia.
Qed.
Lemma core_inert p : pattern_ok p -> inert F_new (core p).
Proof.
  intros H. apply inert_seq; [right; reflexivity|apply H|]. apply (inert_top F_none); [left; reflexivity|right; reflexivity|].
  apply core_tail_inert; exact H.
Qed.
Lemma pattern_here p n text m : pattern_ok p -> is_text text -> (length (pwritten p) + length text + 5 <= n)%nat ->
  match_here n F_new (pwritten p) text m = Some (result p text, m).
Proof.
  intros H Hb Hn. rewrite pwritten_core in *. destruct (caret p); cbn [app length] in *.
  2:{ apply core_ok; auto; [right; reflexivity|lia]. }
  destruct n as [|[|n]]; [lia|lia|]. cbn [match_here]. unfold here_step.
  rewrite get_plain by reflexivity. change (unescaped (f_square F_new) 94) with XOR. cbn [f_special f_or F_new].
  change (mkF false false true false) with F_new.
  assert (P : past F_new (94 :: core p) = core p) by (unfold past; rewrite get_plain by reflexivity; apply next_plain; reflexivity).
  rewrite process_or_inert by (rewrite P; apply core_inert; exact H). cbn [obind Z.ltb Z.compare].
  assert (O : operand F_new (94 :: core p) = Some (core p)) by (unfold operand; rewrite get_plain by reflexivity; change (unescaped (f_square F_new) 94) with XOR; cbn [Z.eqb XOR LPAR LSQUAR Pos.eqb]; rewrite next_plain by reflexivity; reflexivity).
  rewrite O. cbn [XOR LPAR LSQUAR Z.eqb Pos.eqb orb andb]. rewrite repeated_inert by (apply core_inert; exact H). cbn [obind f_new F_new andb].
  rewrite next_plain by reflexivity.
  apply (core_ok p H (S n) F_new text m); [right; reflexivity|exact Hb|]. lia.
Qed.

(** ** The result is the longest match *)
Lemma run_le a text : (run a text <= length text)%nat.
Proof. induction text as [|t r IH]; cbn [run length]; [lia|]. destruct (accepts a t); lia. Qed.
Lemma run_accepts a text k : (k <= run a text)%nat -> Forall (fun b => accepts a b = true) (firstn k text).
Proof.
  revert k. induction text as [|t r IH]; intros k H; cbn [run] in H; [rewrite firstn_nil; constructor|].
  destruct k as [|k]; [constructor|]. destruct (accepts a t) eqn:E; [|lia]. cbn [firstn]. constructor; [exact E|apply IH; lia].
Qed.
Lemma run_max a s w : Forall (fun b => accepts a b = true) s -> (length s <= run a (s ++ w))%nat.
Proof. induction 1 as [|t s Ht H IH]; cbn [app run length]; [lia|]. rewrite Ht. lia. Qed.

Definition tail_lang (p : pattern) (s : list N) : Prop :=
  match rep p with
  | None => s = []
  | Some (a, o) =>
      Forall (fun b => accepts a b = true) s /\ (fst (bounds o) <= length s)%nat /\
      match snd (bounds o) with Some m => (length s <= m)%nat | None => True end
  end.
(** What is left over has the match before it, and no longer match exists. *)
Definition exact (L : list N -> Prop) (d : bool) (text : list N) (r : option (list N)) : Prop :=
  match r with
  | Some w => exists s, text = s ++ w /\ L s /\ (d = true -> w = []) /\
      (forall s' w', text = s' ++ w' -> L s' -> (d = true -> w' = []) -> (length s' <= length s)%nat)
  | None => forall s w, text = s ++ w -> L s -> (d = true -> w = []) -> False
  end.
Lemma dollar_some d text w : dollar_res d text = Some w -> w = text /\ (d = true -> text = []).
Proof. unfold dollar_res. destruct d, text; intros E; inversion E; split; auto; discriminate. Qed.
Lemma dollar_none d text : dollar_res d text = None -> d = true /\ text <> [].
Proof. unfold dollar_res. destruct d, text; intros E; inversion E; split; auto; discriminate. Qed.

Lemma tail_exact p text : exact (tail_lang p) (dollar p) text (tail_res p text).
Proof.
  unfold tail_res, tail_lang, exact. destruct (rep p) as [[a o]|].
  - unfold rep_res. cbv zeta. destruct (bounds o) as [lo hi]. cbn [fst snd].
    set (k := greedy hi a text).
    assert (Hk : (k <= run a text)%nat) by (unfold k, greedy; destruct hi; lia). pose proof (run_le a text) as Hl.
    assert (Hlen : length (firstn k text) = k) by (apply firstn_length_le; lia).
    assert (Max : forall s w, text = s ++ w -> Forall (fun b => accepts a b = true) s ->
              match hi with Some m => (length s <= m)%nat | None => True end -> (length s <= k)%nat).
    { intros s w -> Hs Hm. pose proof (run_max a s w Hs). unfold k, greedy. destruct hi; lia. }
    destruct (Nat.leb_spec lo k).
    + destruct (dollar_res (dollar p) (skipn k text)) as [w|] eqn:D.
      * apply dollar_some in D. destruct D as [-> D]. exists (firstn k text). rewrite firstn_skipn, Hlen. split; [reflexivity|].
        split; [split; [apply run_accepts; exact Hk|]|].
        -- split; [assumption|]. unfold k, greedy. destruct hi; [lia|exact I].
        -- split; [exact D|]. intros s' w' E (L1 & L2 & L3) _. apply (Max s' w'); auto.
      * apply dollar_none in D. destruct D as [D1 D2]. intros s w E (L1 & L2 & L3) L4. specialize (L4 D1). subst w.
        rewrite app_nil_r in E. subst s. pose proof (Max text [] ltac:(rewrite app_nil_r; reflexivity) L1 L3).
        apply D2. apply skipn_all2. lia.
    + intros s w E (L1 & L2 & L3) _. pose proof (Max s w E L1 L3). lia.
  - destruct (dollar_res (dollar p) text) as [w|] eqn:D.
    + apply dollar_some in D. destruct D as [-> D]. exists []. repeat split; auto. intros s' w' _ -> _. cbn; lia.
    + apply dollar_none in D. destruct D as [D1 D2]. intros s w E -> Hd. cbn [app] in E. subst w. auto.
Qed.
Lemma seq_exact p : forall ps text,
  exact (fun s => exists s1 s2, s = s1 ++ s2 /\ Forall2 (fun x b => accepts x b = true) ps s1 /\ tail_lang p s2)
    (dollar p) text (after_seq ps (tail_res p) text).
Proof.
  induction ps as [|a ps IH]; intros text.
  - cbn [after_seq]. pose proof (tail_exact p text) as T. unfold exact in *. destruct (tail_res p text) as [w|].
    + destruct T as (s & E & L & D & M). exists s. repeat split; auto.
      * exists [], s. repeat split; auto.
      * intros s' w' E' (s1 & s2 & -> & F & L') D'. inversion F; subst. apply (M s2 w'); auto.
    + intros s w E (s1 & s2 & -> & F & L) D. inversion F; subst. apply (T s2 w); auto.
  - cbn [after_seq]. destruct text as [|t text].
    + cbn [exact]. intros s w E (s1 & s2 & -> & F & L) D. inversion F; subst. discriminate.
    + destruct (accepts a t) eqn:Ea.
      * specialize (IH text). unfold exact in *. destruct (after_seq ps (tail_res p) text) as [w|].
        -- destruct IH as (s & E & (s1 & s2 & -> & F & L) & D & M). exists (t :: s1 ++ s2). split; [cbn [app]; rewrite E, <- app_assoc; reflexivity|].
           split; [exists (t :: s1), s2; repeat split; auto|]. split; [exact D|].
           intros s' w' E' (s1' & s2' & -> & F' & L') D'. inversion F' as [|? b ? s1'' Hb F'']; subst.
           cbn [app] in E'. injection E' as <- E'. cbn [length]. apply le_n_S.
           apply (M (s1'' ++ s2') w' E'); [exists s1'', s2'; auto|exact D'].
        -- intros s w E (s1 & s2 & -> & F & L) D. inversion F as [|? b ? s1'' Hb F'']; subst. cbn [app] in E. injection E as <- E.
           apply (IH (s1'' ++ s2) w); auto. exists s1'', s2. auto.
      * cbn [exact]. intros s w E (s1 & s2 & -> & F & L) D. inversion F as [|? b ? s1'' Hb F'']; subst. cbn [app] in E. injection E as <- E. congruence.
Qed.
Lemma result_some p text w : result p text = Some w -> exists s, text = s ++ w /\ longest_at p s w.
Proof.
  intros E. pose proof (seq_exact p (body p) text) as X. unfold result in E. rewrite E in X. cbn [exact] in X.
  destruct X as (s & E' & L & D & M). exists s. split; [exact E'|]. split; [split; [exact L|exact D]|].
  intros s' w' E2 [L' D']. apply (M s' w'); auto. congruence.
Qed.
Lemma result_none p text : result p text = None -> none_at p text.
Proof.
  intros E. pose proof (seq_exact p (body p) text) as X. unfold result in E. rewrite E in X. cbn [exact] in X.
  intros s w E' [L D]. exact (X s w E' L D).
Qed.

(** ** mln_reg_equal *)
Lemma first_byte p : pattern_ok p -> match pwritten p with [] => caret p = false | b :: _ => (b =? 94) = caret p end.
Proof.
  intros H. rewrite pwritten_core. destruct (caret p); [reflexivity|]. cbn [app].
  assert (A : forall a w, wf a -> match written a ++ w with [] => False | b :: _ => (b =? 94) = false end).
  { intros [c| |k i|i ms] w Ha; cbn [written app]; try reflexivity. unfold quote. destruct (special c) eqn:S; cbn [app]; [reflexivity|].
    apply not_special in S. tauto. }
  unfold core, seq. destruct H as [H1 H2]. destruct H1 as [|a ps Ha _]; cbn [map concat].
  - cbn [app]. destruct (rep p) as [[a o]|].
    + specialize (A a (op_written o ++ dl (dollar p)) (proj1 H2)). destruct (written a ++ op_written o ++ dl (dollar p)); tauto.
    + destruct (dollar p); reflexivity.
  - rewrite <- app_assoc. match goal with |- match ?x with _ => _ end => assert (B := A a _ Ha : match x with [] => False | b :: _ => (b =? 94) = false end) end.
    destruct (written a ++ _); tauto.
Qed.
Lemma is_text_app u w : is_text (u ++ w) -> is_text w.
Proof. unfold is_text. rewrite Forall_app. tauto. Qed.

Lemma equal_ok p fuel : pattern_ok p -> forall text, is_text text -> (length (pwritten p) + length text + 5 <= fuel)%nat ->
  exists r, equal_loop fuel (pwritten p) text = Some r /\
    if (r <? 0)%Z then (r = -1)%Z /\ (forall u s w, text = u ++ s ++ w -> (caret p = true -> u = []) -> ~ matches_at p s w)
    else occurs p text.
Proof.
  intros H. induction text as [|t text IH]; intros Hb Hn; cbn [equal_loop]; rewrite pattern_here by auto; cbn [obind fst snd];
    pose proof (first_byte p H) as Hfb.
  - destruct (result p []) as [w|] eqn:E.
    + eexists. split; [reflexivity|].
      match goal with |- if (?x <? 0)%Z then _ else _ => replace (x <? 0)%Z with false by (destruct (_ && _); lia) end.
      destruct (result_some _ _ _ E) as (s & E' & L & _). exists [], s, w. auto.
    + exists (-1)%Z. split; [destruct (pwritten p); reflexivity|]. split; [reflexivity|]. intros u s w E' _ L.
      assert (u = []) by (destruct u; [reflexivity|discriminate]). subst u. exact (result_none _ _ E s w E' L).
  - destruct (result p (t :: text)) as [w|] eqn:E.
    + eexists. split; [reflexivity|].
      match goal with |- if (?x <? 0)%Z then _ else _ => replace (x <? 0)%Z with false by (destruct (_ && _); lia) end.
      destruct (result_some _ _ _ E) as (s & E' & L & _). exists [], s, w. auto.
    + destruct (pwritten p) as [|b r] eqn:Ep.
      { exfalso. assert (pattern_ok p) by exact H. (* the empty expression matches everywhere *)
        rewrite pwritten_core in Ep. apply app_eq_nil in Ep. destruct Ep as [_ Ep]. unfold core in Ep. apply app_eq_nil in Ep. destruct Ep as [E1 E2].
        unfold result, tail_res in E. destruct (body p) as [|a ps].
        - cbn [after_seq] in E. destruct (rep p) as [[a o]|].
          + apply app_eq_nil in E2. destruct (written_nonempty a). apply E2.
          + destruct (dollar p); discriminate.
        - unfold seq in E1. cbn [map concat] in E1. apply app_eq_nil in E1. destruct (written_nonempty a). apply E1. }
      rewrite Hfb. destruct (caret p) eqn:C.
      * exists (-1)%Z. split; [reflexivity|]. split; [reflexivity|]. intros u s w E' Hu L. rewrite (Hu eq_refl) in E'. exact (result_none _ _ E s w E' L).
      * inversion Hb as [|? ? Ht Hb']; subst. cbn [length] in Hn.
        destruct (IH Hb' ltac:(cbn [length]; lia)) as (r0 & -> & R). exists r0. split; [reflexivity|].
        destruct (r0 <? 0)%Z.
        -- destruct R as [R1 R2]. split; [exact R1|]. intros u s w E' _ L. destruct u as [|x u]; cbn [app] in E'.
           ++ exact (result_none _ _ E s w E' L).
           ++ injection E' as <- E'. apply (R2 u s w E'); [discriminate|exact L].
        -- destruct R as (u & s & w & E' & L & _). exists (t :: u), s, w. rewrite E'. split; [reflexivity|]. split; [exact L|]. rewrite C. discriminate.
Qed.

(** ** mln_reg_match *)
Lemma match_ok p : pattern_ok p -> caret p = false -> forall n fuel text m, is_text text ->
  (length text < n)%nat -> (length (pwritten p) + length text + 5 <= fuel)%nat ->
  exists l, match_loop n fuel (pwritten p) text m = Some (m ++ l) /\ successive p text l.
Proof.
  intros H C. induction n as [|n IH]; intros fuel text m Hb Hn Hf; [lia|]. cbn [match_loop].
  rewrite pattern_here by auto. cbn [obind fst snd]. pose proof (first_byte p H) as Hfb.
  destruct (result p text) as [w|] eqn:E.
  - destruct (result_some _ _ _ E) as (s & E' & L). rewrite E'. rewrite app_length.
    destruct (Nat.eqb_spec (length s + length w) (length w)).
    + exists []. rewrite app_nil_r. split; [reflexivity|constructor].
    + assert (Hs : s <> []) by (intros ->; cbn in *; lia). pose proof (length_nonempty s Hs).
      assert (LM : leftmost p (s ++ w) [] s w).
      { split; [reflexivity|]. split; [exact L|]. intros u1 u2 Hu Hne. destruct u1, u2; cbn in Hu; congruence. }
      rewrite before_app. destruct (length (pwritten p) <=? length w)%nat.
      * rewrite E', app_length in *. destruct (IH fuel w (m ++ [s])) as (l & -> & S).
        -- exact (is_text_app s w Hb).
        -- lia.
        -- lia.
        -- exists (s :: l). rewrite <- app_assoc. split; [reflexivity|]. apply (successive_one p (s ++ w) [] s w); auto.
      * exists [s]. split; [reflexivity|]. apply (successive_one p (s ++ w) [] s w); auto. constructor.
  - destruct (pwritten p) as [|b r] eqn:Ep; [exists []; rewrite app_nil_r; split; [reflexivity|constructor]|].
    destruct text as [|t text]; [exists []; rewrite app_nil_r; split; [reflexivity|constructor]|].
    rewrite Hfb, C. inversion Hb as [|? ? Ht Hb']; subst. cbn [length] in *.
    destruct (IH fuel text m Hb' ltac:(lia) ltac:(cbn [length]; lia)) as (l & -> & S). exists l. split; [reflexivity|].
    inversion S as [? | ? u s w l' (E1 & E2 & E3) Hs S']; subst; [constructor|].
    apply (successive_one p _ (t :: u) s w); auto. split; [reflexivity|]. split; [exact E2|].
    intros u1 u2 Hu Hne. destruct u1 as [|x u1]; cbn [app] in Hu.
    + subst u2. cbn [app]. exact (result_none _ _ E).
    + injection Hu as <- Hu. exact (E3 u1 u2 Hu Hne).
Qed.

(** Nothing is missed when every atom is written as one byte. *)
Definition flat (ps : list atom) : pattern := mkPat false ps None false.
Lemma flat_result ps text : result (flat ps) text = if fits ps text then Some (skipn (length ps) text) else None.
Proof.
  unfold result, tail_res. cbn [body flat rep dollar].
  revert text. induction ps as [|a ps IH]; intros text; [reflexivity|]. cbn [after_seq fits]. destruct text as [|t text]; [reflexivity|].
  destruct (accepts a t); cbn [andb length skipn]; [apply IH|reflexivity].
Qed.
Lemma flat_length ps : Forall single ps -> length (pwritten (flat ps)) = length ps.
Proof.
  intros H. rewrite pwritten_core. unfold core, seq. cbn [flat caret rep dollar dl app body]. rewrite app_nil_r.
  induction H as [|a ps Ha H IH]; [reflexivity|]. cbn [map concat length]. rewrite app_length, IH, (single_written a Ha). reflexivity.
Qed.
Lemma fits_length ps text : fits ps text = true -> (length ps <= length text)%nat.
Proof.
  revert text. induction ps as [|a ps IH]; intros text H; [cbn; lia|]. destruct text as [|t text]; cbn [fits length] in *; [discriminate|].
  apply andb_true_iff in H. destruct H as [_ H]. specialize (IH _ H). lia.
Qed.
Lemma occurrences_short n : forall ps text, ps <> [] -> (length text < length ps)%nat -> occurrences n ps text = [].
Proof.
  induction n as [|n IH]; intros ps text Hne Hl; [reflexivity|]. destruct text as [|t text]; [reflexivity|]. cbn [occurrences].
  destruct (fits ps (t :: text)) eqn:F; [apply fits_length in F; lia|]. apply IH; [exact Hne|cbn in Hl; lia].
Qed.
Lemma occurrences_more n : forall k ps text, ps <> [] -> (length text <= n)%nat -> (length text <= k)%nat -> occurrences n ps text = occurrences k ps text.
Proof.
  induction n as [|n IH]; intros k ps text Hne Hn Hk.
  - destruct text; [|cbn in Hn; lia]. destruct k; reflexivity.
  - destruct text as [|t text]; [destruct k; reflexivity|]. destruct k as [|k]; [cbn in Hk; lia|]. cbn [occurrences length] in *.
    destruct ps as [|a ps]; [congruence|].
    destruct (fits (a :: ps) (t :: text)).
    + f_equal. apply IH; [exact Hne| |]; cbn [length skipn]; rewrite skipn_length; lia.
    + apply IH; [exact Hne| |]; lia.
Qed.
Lemma match_all ps : ps <> [] -> Forall wf ps -> Forall single ps -> forall n fuel text m, is_text text ->
  (length text < n)%nat -> (length ps + length text + 5 <= fuel)%nat ->
  match_loop n fuel (pwritten (flat ps)) text m = Some (m ++ occurrences (length text) ps text).
Proof.
  intros Hne Hw Hs. pose proof (flat_length ps Hs) as FL.
  assert (Hok : pattern_ok (flat ps)) by (split; [exact Hw|exact I]).
  induction n as [|n IH]; intros fuel text m Hb Hn Hf; [lia|]. cbn [match_loop].
  rewrite pattern_here by (auto; lia). cbn [obind fst snd]. rewrite flat_result. pose proof (first_byte _ Hok) as Hfb.
  destruct (fits ps text) eqn:F.
  - pose proof (fits_length _ _ F) as FLe. rewrite skipn_length. pose proof (length ps) as _.
    assert (1 <= length ps)%nat by (destruct ps; [congruence|cbn; lia]).
    replace (length text =? length text - length ps)%nat with false by lia.
    unfold before. rewrite skipn_length. replace (length text - (length text - length ps))%nat with (length ps) by lia. rewrite FL.
    destruct text as [|t text]; [cbn in FLe; lia|].
    assert (O : occurrences (length (t :: text)) ps (t :: text) =
                firstn (length ps) (t :: text) :: occurrences (length (skipn (length ps) (t :: text))) ps (skipn (length ps) (t :: text))).
    { cbn [length occurrences]. rewrite F. f_equal. apply occurrences_more; [exact Hne|rewrite skipn_length; cbn [length]; lia|lia]. }
    rewrite O. destruct (Nat.leb_spec (length ps) (length (t :: text) - length ps)).
    + rewrite IH; [rewrite <- app_assoc; reflexivity|apply is_text_skip; exact Hb| |]; rewrite skipn_length; lia.
    + rewrite occurrences_short; [reflexivity|exact Hne|rewrite skipn_length; lia].
  - destruct (pwritten (flat ps)) as [|b r] eqn:Ep; [cbn [length] in FL; destruct ps; [congruence|discriminate]|].
    destruct text as [|t text]; [cbn [length occurrences]; rewrite app_nil_r; reflexivity|].
    cbn [caret flat] in Hfb. rewrite Hfb. cbn [length occurrences]. rewrite F. cbn [length] in *.
    rewrite IH; [reflexivity|inversion Hb; auto|lia|lia].
Qed.
