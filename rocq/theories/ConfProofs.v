Require Import List Arith NArith ZArith Bool Lia.
Require Import ZifyBool ZifyNat ZifyN.
Require Import Verif.Base Verif.StrModel Verif.StrSpec Verif.StrProofs Verif.LexModel Verif.LexSpec Verif.LexProofs Verif.ExprModel Verif.ExprSpec Verif.ExprProofs Verif.ConfModel Verif.ConfSpec.
Import ListNotations.
Local Open Scope N_scope.
Local Notation bytes := LexModel.bytes.

(** ** The tokens of configurations *)
Lemma outer_main : outer = main.
Proof. reflexivity. Qed.
Lemma on_off_keywords : on_off = conf_keywords.
Proof. reflexivity. Qed.
Lemma conf_keywords_ok : keywords_ok conf_keywords.
Proof.
  let k := eval vm_compute in conf_keywords in change conf_keywords with k.
  split.
  - repeat (constructor; [split; [|discriminate]|]); try constructor; (eexists; eexists; split; [reflexivity|]; split; [unfold letter; lia|repeat (constructor; [unfold letter; lia|]); constructor]).
  - repeat constructor; cbn [In map]; intros H; repeat (destruct H as [H|H]; [discriminate|]); exact H.
Qed.
Lemma conf_escape_iff : forall c x, conf_escape c = Some x <-> In (c, x) conf_escapes.
Proof.
  intros c x. unfold conf_escape, conf_escapes. cbn [In]. destruct (N.eqb_spec c 101) as [E|E].
  - subst c. split.
    + intros H; injection H as H; subst; auto.
    + intros [H|H]; [injection H as H; subst; reflexivity|]. apply escape_iff in H. discriminate.
  - rewrite escape_iff. split; [auto|]. intros [H|H]; [injection H as H1 H2; congruence|exact H].
Qed.
Lemma escape_ascii : forall c x, In (c, x) conf_escapes -> c < 128 /\ x < 128.
Proof. intros c x H. unfold conf_escapes, escapes in H. cbn [In] in H. repeat (destruct H as [H|H]; [injection H as H1 H2; subst; lia|]). elim H. Qed.
Lemma conf_quoted_spelled : forall v s, conf_string v s -> forall r, plain (s ++ 34 :: r) -> conf_quoted (s ++ 34 :: r) = Some (v, r).
Proof.
  intros v s B; induction B as [|c v s N1 N2 B IH|c x v s I B IH]; intros r P.
  - reflexivity.
  - cbn [app conf_quoted] in *. destruct (plain_head _ _ P) as [P1 P2]. rewrite P1, P2. cbn [orb].
    replace (c =? 34) with false by lia. replace (c =? 92) with false by lia. rewrite IH by apply (Forall_inv_tail P). reflexivity.
  - cbn [app conf_quoted] in *. replace ((92 =? ERR) || (92 =? EOF)) with false by reflexivity. replace (92 =? 34) with false by reflexivity.
    replace (92 =? 92) with true by reflexivity.
    rewrite (proj2 (conf_escape_iff c x) I). rewrite IH by apply (Forall_inv_tail (Forall_inv_tail P)). reflexivity.
Qed.
Lemma conf_quoted_inv : forall n l v r, (length l <= n)%nat -> conf_quoted l = Some (v, r) -> exists s, conf_string v s /\ l = s ++ 34 :: r.
Proof.
  intros n; induction n as [|n IH]; intros l v r L H; (destruct l as [|c l]; [discriminate|]); [cbn in L; lia|].
  cbn [conf_quoted length] in *. destruct ((c =? ERR) || (c =? EOF)); [discriminate|]. destruct (c =? 34) eqn:E.
  - injection H as H1 H2; subst. apply N.eqb_eq in E; subst. exists []. split; [constructor|reflexivity].
  - destruct (c =? 92) eqn:E2.
    + destruct l as [|x l]; [discriminate|]. destruct (conf_escape x) as [y|] eqn:X; [|discriminate].
      cbn in H. destruct (conf_quoted l) as [[v' r']|] eqn:Q; [|discriminate]. cbn in H. injection H as H1 H2; subst.
      cbn [length] in L. destruct (IH l v' r ltac:(lia) Q) as (s & S1 & S2). apply N.eqb_eq in E2; subst. exists (92 :: x :: s).
      split; [|reflexivity]. apply cs_escape; [apply conf_escape_iff; exact X|exact S1].
    + cbn in H. destruct (conf_quoted l) as [[v' r']|] eqn:Q; [|discriminate]. cbn in H. injection H as H1 H2; subst.
      destruct (IH l v' r ltac:(lia) Q) as (s & S1 & S2). subst l. exists (c :: s). split; [|reflexivity]. apply cs_char; auto; lia.
Qed.
Lemma line_spelled : forall s r, plain (s ++ r) -> ~ In 10 s -> r = [] \/ hd 0 r = 10 -> exists l', line_comment (s ++ r) = Some l' /\ rest l' = r.
Proof.
  intros s r; induction s as [|c s IH]; intros P N H; cbn [app] in *.
  - destruct r as [|d r]; [exists None; auto|]. destruct H as [H|H]; [discriminate|]. cbn in H. subst d. exists (Some (10 :: r)). auto.
  - cbn [line_comment]. destruct (plain_head _ _ P) as [P1 P2]. rewrite P1, P2. cbn [In] in N. replace (c =? 10) with false by lia.
    apply IH; [apply (Forall_inv_tail P)|tauto|exact H].
Qed.
Lemma line_inv : forall l l', plain l -> line_comment l = Some l' -> exists s r, l = s ++ r /\ rest l' = r /\ ~ In 10 s /\ (r = [] \/ hd 0 r = 10).
Proof.
  intros l; induction l as [|c l IH]; intros l' P H; cbn [line_comment] in H.
  - injection H as H; subst. exists [], []. cbn. tauto.
  - destruct (plain_head _ _ P) as [P1 P2]. rewrite P1, P2 in H. destruct (N.eqb_spec c 10) as [E|E].
    + injection H as H; subst. exists [], (10 :: l). cbn. tauto.
    + destruct (IH l' (Forall_inv_tail P) H) as (s & r & E1 & E2 & E3 & E4). subst l. exists (c :: s), r. cbn [In app]. repeat split; auto.
      intros [G|G]; [congruence|tauto].
Qed.
Lemma block_spelled : forall s, comment_body s -> forall r, plain (s ++ 42 :: 47 :: r) -> block_comment (s ++ 42 :: 47 :: r) = Some (Some r).
Proof.
  intros s B; induction B as [|c s N B IH|d s N B IH]; intros r P; cbn [app] in *; cbn [block_comment].
  - reflexivity.
  - destruct (plain_head _ _ P) as [P1 P2]. rewrite P1, P2. replace (c =? 42) with false by lia. apply IH. apply (Forall_inv_tail P).
  - destruct (plain_head _ _ P) as [P1 P2]. rewrite P1, P2. replace (42 =? 42) with true by reflexivity. apply Forall_inv_tail in P.
    destruct (plain_head _ _ P) as [P3 P4]. rewrite P3, P4. replace (d =? 47) with false by lia. apply IH. apply (Forall_inv_tail P).
Qed.
Lemma block_open : forall s, comment_body s -> plain s -> block_comment s = Some None /\ block_comment (s ++ [42]) = Some None.
Proof.
  intros s B; induction B as [|c s N B IH|d s N B IH]; intros P; cbn [app]; cbn [block_comment].
  - split; reflexivity.
  - destruct (plain_head _ _ P) as [P1 P2]. rewrite P1, P2. replace (c =? 42) with false by lia. apply IH. apply (Forall_inv_tail P).
  - destruct (plain_head _ _ P) as [P1 P2]. rewrite P1, P2. replace (42 =? 42) with true by reflexivity. apply Forall_inv_tail in P.
    destruct (plain_head _ _ P) as [P3 P4]. rewrite P3, P4. replace (d =? 47) with false by lia. apply IH. apply (Forall_inv_tail P).
Qed.
Lemma block_inv : forall n l l', (length l <= n)%nat -> plain l -> block_comment l = Some l' ->
  (exists s r, l = s ++ 42 :: 47 :: r /\ comment_body s /\ l' = Some r) \/
  (l' = None /\ (comment_body l \/ exists u, l = u ++ [42] /\ comment_body u)).
Proof.
  intros n; induction n as [|n IH]; intros l l' L P H.
  - destruct l; [|cbn in L; lia]. injection H as H; subst. right. split; [reflexivity|left; constructor].
  - destruct l as [|c l]; [injection H as H; subst; right; split; [reflexivity|left; constructor]|].
    cbn [block_comment length] in *. destruct (plain_head _ _ P) as [P1 P2]. rewrite P1, P2 in H. apply Forall_inv_tail in P.
    destruct (N.eqb_spec c 42) as [E|E].
    + subst c. destruct l as [|d l].
      * injection H as H; subst. right. split; [reflexivity|]. right. exists []. split; [reflexivity|constructor].
      * destruct (plain_head _ _ P) as [P3 P4]. rewrite P3, P4 in H. apply Forall_inv_tail in P. cbn [length] in L. destruct (N.eqb_spec d 47) as [D|D].
        -- subst d. injection H as H; subst. left. exists [], l. repeat split. constructor.
        -- destruct (IH l l' ltac:(lia) P H) as [(s & r & E1 & E2 & E3)|(E1 & E2)].
           ++ subst l. left. exists (42 :: d :: s), r. repeat split; auto. apply cb_star; auto.
           ++ right. split; [exact E1|]. destruct E2 as [E2|(u & E2 & E3)]; [left; apply cb_star; auto|]. subst l. right. exists (42 :: d :: u).
              split; [reflexivity|apply cb_star; auto].
    + destruct (IH l l' ltac:(lia) P H) as [(s & r & E1 & E2 & E3)|(E1 & E2)].
      * subst l. left. exists (c :: s), r. repeat split; auto. constructor; auto.
      * right. split; [exact E1|]. destruct E2 as [E2|(u & E2 & E3)]; [left; constructor; auto|]. subst l. right. exists (c :: u).
        split; [reflexivity|constructor; auto].
Qed.

Lemma conf_spec_char : forall c l, spec_char conf_hooks c (Some l) =
  if special c then if c =? 34 then str_hook l else if c =? 39 then char_hook l else if c =? 47 then slash_hook l else LTok (TSpec c) (Some l) else LErr.
Proof. intros c l. unfold spec_char, conf_hooks. destruct (special c); [|reflexivity]. repeat (destruct (c =? _); [reflexivity|]). reflexivity. Qed.
Lemma plain_app_r : forall a b, plain (a ++ b) -> plain b.
Proof. intros a b P. apply Forall_app in P. apply P. Qed.
Ltac other_first := right; split; [unfold first_other, letter, dec_digit, blank; lia|].
Lemma conf_hooks_ok : hooks_ok conf_hooks conf_other.
Proof.
  split; [|split; [|split]].
  - intros t s r H EN P. split; [destruct H; discriminate|].
    destruct H as [c PU N1 N2 N3|S1 S2|v s B|c C N1 N2|c x I|s N R|s B|s B R]; (eexists; eexists; split; [reflexivity|]).
    + destruct (N.eq_dec c 95) as [E|E]; [left; subst; auto|]. right.
      split; [unfold first_other, letter, dec_digit, blank; unfold punctuation in PU; lia|]. exists (Some r). split; [|reflexivity].
      rewrite conf_spec_char. rewrite (proj2 (special_iff c) PU). replace (c =? 34) with false by lia. replace (c =? 39) with false by lia. replace (c =? 47) with false by lia.
      reflexivity.
    + other_first. rewrite conf_spec_char. cbn [special N.leb N.compare Pos.compare Pos.compare_cont andb orb N.eqb Pos.eqb app].
      destruct r as [|c r]; [exists None; split; reflexivity|]. exists (Some (c :: r)). split; [|reflexivity]. cbn [hd] in S1, S2. unfold slash_hook.
      apply Forall_inv_tail in P. destruct (plain_head _ _ P) as [P1 P2]. rewrite P1, P2. replace (c =? 42) with false by lia. replace (c =? 47) with false by lia. reflexivity.
    + other_first. exists (Some r). split; [|reflexivity]. rewrite conf_spec_char. cbn [special N.leb N.compare Pos.compare Pos.compare_cont andb orb N.eqb Pos.eqb].
      unfold str_hook. rewrite <- app_assoc. cbn [app]. rewrite (conf_quoted_spelled v s B r); [reflexivity|].
      cbn [app] in P. apply Forall_inv_tail in P. rewrite <- app_assoc in P. exact P.
    + other_first. exists (Some r). split; [|reflexivity]. rewrite conf_spec_char. cbn [special N.leb N.compare Pos.compare Pos.compare_cont andb orb N.eqb Pos.eqb app].
      unfold char_hook. replace ((127 <? c) || (c =? 39)) with false by lia. replace (c =? 92) with false by lia. reflexivity.
    + other_first. exists (Some r). split; [|reflexivity]. rewrite conf_spec_char. cbn [special N.leb N.compare Pos.compare Pos.compare_cont andb orb N.eqb Pos.eqb app].
      unfold char_hook. replace ((127 <? 92) || (92 =? 39)) with false by reflexivity. replace (92 =? 92) with true by reflexivity.
      rewrite (proj2 (conf_escape_iff c x) I). reflexivity.
    + other_first. rewrite conf_spec_char. cbn [special N.leb N.compare Pos.compare Pos.compare_cont andb orb N.eqb Pos.eqb app].
      unfold slash_hook. replace (47 =? ERR) with false by reflexivity. replace (47 =? EOF) with false by reflexivity. replace (47 =? 42) with false by reflexivity.
      replace (47 =? 47) with true by reflexivity. destruct (line_spelled s r) as (l' & L1 & L2); auto; [apply (Forall_inv_tail (Forall_inv_tail P))|].
      exists l'. rewrite L1. auto.
    + other_first. exists (Some r). split; [|reflexivity]. rewrite conf_spec_char. cbn [special N.leb N.compare Pos.compare Pos.compare_cont andb orb N.eqb Pos.eqb app].
      unfold slash_hook. replace (42 =? ERR) with false by reflexivity. replace (42 =? EOF) with false by reflexivity. replace (42 =? 42) with true by reflexivity.
      rewrite <- app_assoc. cbn [app]. rewrite (block_spelled s B r); [reflexivity|]. cbn [app] in P. apply Forall_inv_tail, Forall_inv_tail in P. rewrite <- app_assoc in P. exact P.
    + other_first. exists None. subst r. split; [|reflexivity]. rewrite conf_spec_char. cbn [special N.leb N.compare Pos.compare Pos.compare_cont andb orb N.eqb Pos.eqb app].
      unfold slash_hook. replace (42 =? ERR) with false by reflexivity. replace (42 =? EOF) with false by reflexivity. replace (42 =? 42) with true by reflexivity.
      rewrite app_nil_r in *. apply Forall_inv_tail, Forall_inv_tail in P. destruct B as [B|(u & -> & B)].
      * rewrite (proj1 (block_open s B P)). reflexivity.
      * apply Forall_app in P. rewrite (proj2 (block_open u B (proj1 P))). reflexivity.
  - intros c l t l' F P H. rewrite conf_spec_char in H. destruct (special c) eqn:S; [|discriminate]. apply special_iff in S.
    assert (P' : plain l) by apply (Forall_inv_tail P).
    destruct (N.eqb_spec c 34) as [E|E]; [|destruct (N.eqb_spec c 39) as [E1|E1]; [|destruct (N.eqb_spec c 47) as [E2|E2]]].
    + subst c. unfold str_hook in H. destruct (conf_quoted l) as [[v r]|] eqn:Q; [|discriminate]. injection H as H1 H2; subst t l'. split; [discriminate|].
      destruct (conf_quoted_inv (length l) l v r (le_n _) Q) as (s & S1 & S2). exists (s ++ [34]), r. rewrite <- app_assoc. repeat split; auto; [|destruct r; exact I].
      apply co_str. exact S1.
    + subst c. unfold char_hook in H. destruct l as [|c r]; [discriminate|]. destruct ((127 <? c) || (c =? 39)) eqn:A; [discriminate|].
      destruct (N.eqb_spec c 92) as [E2|E2].
      * subst c. destruct r as [|n r]; [discriminate|]. destruct (conf_escape n) as [v|] eqn:X; [|discriminate]. cbn in H. destruct r as [|d r]; [discriminate|].
        destruct (N.eqb_spec d 39) as [D|D]; [|discriminate]. subst d. injection H as H1 H2; subst t l'. split; [discriminate|].
        exists [92; n; 39], r. repeat split; auto; [|destruct r; exact I]. apply co_char_escape. apply conf_escape_iff. exact X.
      * destruct r as [|d r]; [discriminate|]. destruct (N.eqb_spec d 39) as [D|D]; [|discriminate]. subst d. injection H as H1 H2; subst t l'. split; [discriminate|].
        exists [c; 39], r. repeat split; auto; [|destruct r; exact I]. apply co_char; lia.
    + subst c. unfold slash_hook in H. destruct l as [|c r].
      { injection H as H1 H2; subst t l'. split; [discriminate|]. exists [], []. repeat split; auto. apply co_slash; cbn; lia. }
      destruct (plain_head _ _ P') as [P1 P2]. rewrite P1, P2 in H. destruct (N.eqb_spec c 42) as [C|C]; [|destruct (N.eqb_spec c 47) as [C1|C1]].
      * subst c. destruct (block_comment r) as [l1|] eqn:B; [|discriminate]. injection H as H1 H2; subst t l1. split; [discriminate|].
        destruct (block_inv (length r) r l' (le_n _) (Forall_inv_tail P') B) as [(s & r' & E3 & E4 & E5)|(E3 & E4)].
        -- subst r l'. exists (42 :: s ++ [42; 47]), r'. cbn [app]. rewrite <- app_assoc. repeat split; auto; [|destruct r'; exact I]. apply co_block. exact E4.
        -- subst l'. exists (42 :: r), []. rewrite app_nil_r. repeat split; auto. apply co_open; auto.
      * subst c. destruct (line_comment r) as [l1|] eqn:B; [|discriminate]. injection H as H1 H2; subst t l1. split; [discriminate|].
        destruct (line_inv r l' (Forall_inv_tail P') B) as (s & r' & E3 & E4 & E5 & E6). subst r. exists (47 :: s), r'. repeat split; auto; [|destruct r'; exact I].
        apply co_line; auto.
      * injection H as H1 H2; subst t l'. split; [discriminate|]. exists [], (c :: r). split; [reflexivity|]. split; [reflexivity|]. split; [apply co_slash; cbn; lia|]. cbn [ends]. intros X. discriminate.
    + injection H as H1 H2; subst t l'. split; [discriminate|]. exists [], l. repeat split; auto.
      * constructor; auto; lia.
      * destruct l; [exact I|]. cbn [ends]. destruct F as (F1 & F2 & F3). intros X. elim F1. unfold letter; auto.
  - reflexivity.
  - intros r. constructor; [unfold punctuation; lia|discriminate|discriminate|discriminate].
Qed.

(** ** What is left gets shorter *)
Definition size (l : lx) : nat := length (rest l).
Lemma scan_size : forall p l s l', scan p l = Some (s, l') -> (length s + size l' <= length l)%nat.
Proof.
  intros p l; induction l as [|c l IH]; intros s l' H; cbn [scan] in H.
  - injection H as H1 H2; subst. cbn. lia.
  - destruct (c =? ERR); [discriminate|]. destruct (c =? EOF); [injection H as H1 H2; subst; cbn; lia|].
    destruct (p c); [|injection H as H1 H2; subst; cbn; lia]. destruct (scan p l) as [[s1 l1]|]; [|discriminate]. cbn in H. injection H as H1 H2; subst.
    specialize (IH s1 l' eq_refl). cbn [length]. lia.
Qed.
Lemma quoted_size : forall n l v r, (length l <= n)%nat -> conf_quoted l = Some (v, r) -> (length r <= length l)%nat.
Proof. intros n l v r L H. destruct (conf_quoted_inv n l v r L H) as (s & _ & ->). rewrite app_length. cbn. lia. Qed.
Lemma line_size : forall l l', line_comment l = Some l' -> (size l' <= length l)%nat.
Proof.
  intros l; induction l as [|c l IH]; intros l' H; cbn [line_comment] in H; [injection H as H; subst; cbn; lia|].
  destruct (c =? ERR); [discriminate|]. destruct (c =? EOF); [injection H as H; subst; cbn; lia|].
  destruct (c =? 10); [injection H as H; subst; cbn; lia|]. apply IH in H. cbn [length]. lia.
Qed.
Lemma block_size : forall n l l', (length l <= n)%nat -> block_comment l = Some l' -> (size l' <= length l)%nat.
Proof.
  intros n; induction n as [|n IH]; intros l l' L H.
  - destruct l; [|cbn in L; lia]. injection H as H; subst. cbn. lia.
  - destruct l as [|c l]; [injection H as H; subst; cbn; lia|]. cbn [block_comment length] in *.
    destruct (c =? ERR); [discriminate|]. destruct (c =? EOF); [injection H as H; subst; cbn; lia|]. destruct (c =? 42).
    + destruct l as [|d l]; [injection H as H; subst; cbn; lia|]. cbn [length] in *.
      destruct (d =? ERR); [discriminate|]. destruct (d =? EOF); [injection H as H; subst; cbn; lia|].
      destruct (d =? 47); [injection H as H; subst; cbn; lia|]. apply IH in H; lia.
    + apply IH in H; lia.
Qed.
Lemma spec_size : forall c l t l', spec_char conf_hooks c l = LTok t l' -> (size l' <= size l)%nat.
Proof.
  intros c l t l' H. unfold spec_char in H. destruct (special c); [|discriminate]. unfold conf_hooks in H.
  change (match l with Some r => r | None => [] end) with (rest l) in H. unfold size at 2.
  destruct (c =? 34); [|destruct (c =? 39); [|destruct (c =? 47)]].
  - unfold str_hook in H. destruct (conf_quoted (rest l)) as [[v r]|] eqn:Q; [|discriminate]. injection H as H1 H2; subst. apply (quoted_size _ _ _ _ (le_n _) Q).
  - unfold char_hook in H. destruct (rest l) as [|d r]; [discriminate|]. destruct ((127 <? d) || (d =? 39)); [discriminate|]. destruct (d =? 92).
    + destruct r as [|n r]; [discriminate|]. destruct (conf_escape n); [|discriminate]. cbn in H. destruct r as [|e r]; [discriminate|].
      destruct (e =? 39); [|discriminate]. injection H as H1 H2; subst. cbn. lia.
    + destruct r as [|e r]; [discriminate|]. destruct (e =? 39); [|discriminate]. injection H as H1 H2; subst. cbn. lia.
  - unfold slash_hook in H. destruct (rest l) as [|d r]; [injection H as H1 H2; subst; cbn; lia|]. destruct (d =? ERR); [discriminate|].
    destruct (d =? EOF); [injection H as H1 H2; subst; cbn; lia|]. destruct (d =? 42); [|destruct (d =? 47)].
    + destruct (block_comment r) as [l1|] eqn:B; [|discriminate]. injection H as H1 H2; subst. apply (block_size _ _ _ (le_n _)) in B. cbn. lia.
    + destruct (line_comment r) as [l1|] eqn:B; [|discriminate]. injection H as H1 H2; subst. apply line_size in B. cbn. lia.
    + injection H as H1 H2; subst. cbn. lia.
  - injection H as H1 H2; subst. unfold size. lia.
Qed.
Definition lexc (l : lx) : lexed := lex_token conf_keywords conf_hooks l.
Lemma lex_shrinks : forall l t l', lexc l = LTok t l' -> (size l' <= size l)%nat /\ (t <> TEof -> (size l' < size l)%nat).
Proof.
  intros l t l' H. unfold lexc in H. rewrite lex_left in H. unfold size at 2 4. remember (rest l) as r eqn:R. clear l R. revert H.
  induction r as [|c r IH]; intros H; cbn [token_of] in H.
  - injection H as H1 H2; subst. cbn. split; [lia|]. intros N; elim N; reflexivity.
  - destruct (c =? ERR) eqn:E1; [discriminate|]. destruct (c =? EOF) eqn:E2; [injection H as H1 H2; subst; cbn; split; [lia|intros N; elim N; reflexivity]|].
    destruct ((c =? 10) || (c =? 9) || (c =? 32)).
    { destruct (IH H) as [I1 I2]. cbn [length]. split; [lia|]. intros N; specialize (I2 N). lia. }
    assert (L : forall (s : bytes) x, (length s + size x <= length (c :: r))%nat -> s <> [] -> (size x < length (c :: r))%nat) by (clear; intros s x Q N; destruct s; [elim N; reflexivity|cbn [length] in *; lia]).
    assert (G : forall p s x, p c = true -> scan p (c :: r) = Some (s, x) -> (size x < length (c :: r))%nat).
    { intros p s x PC SC. apply (L s); [apply (scan_size p); exact SC|]. cbn [scan] in SC. rewrite E1, E2, PC in SC. destruct (scan p r); [|discriminate]. cbn in SC. injection SC as SC1 SC2; subst. discriminate. }
    assert (K : (size l' < length (c :: r))%nat); [|split; [lia|intros; exact K]].
    destruct (is_letter c) eqn:LE; [|destruct (isdigit c) eqn:DI].
    + destruct (scan (fun c => is_letter c || isdigit c) (c :: r)) as [[s x]|] eqn:SC; [|discriminate].
      assert (X : (size x < length (c :: r))%nat) by (apply (G _ s x) in SC; [exact SC|rewrite LE; reflexivity]).
      assert (Y : (size l' <= size x)%nat).
      { clear - H. destruct s as [|d s]; [injection H as _ H; subst; lia|]. destruct d as [|d]; [injection H as _ H; subst; lia|].
        repeat (destruct d as [d|d|]; try (injection H as _ H; subst; lia)). destruct s; [apply spec_size in H; exact H|injection H as _ H; subst; lia]. }
      lia.
    + destruct (scan (fun c => isdigit c || isalpha c || (c =? 46)) (c :: r)) as [[s x]|] eqn:SC; [|discriminate].
      apply (G _ s x) in SC; [|rewrite DI; reflexivity]. destruct (number s); [|discriminate]. injection H as H1 H2; subst. exact SC.
    + apply spec_size in H. unfold size at 2 in H. cbn [rest length] in *. lia.
Qed.

Lemma conf_token_fuel : forall f b l, (size l + 1 <= f)%nat -> conf_token f b l <> NoFuel.
Proof.
  intros f; induction f as [|f IH]; intros b l L; [lia|]. cbn [conf_token]. fold (lexc l). destruct (lexc l) as [|t l'] eqn:X; [discriminate|].
  destruct (lex_shrinks l t l' X) as [_ S].
  destruct (is_comment t) eqn:C.
  { destruct b; [discriminate|]. apply IH. assert (t <> TEof) as N by (intros ->; discriminate). specialize (S N). lia. }
  destruct (is_spec 45 t) eqn:M.
  { destruct b; [discriminate|]. apply IH. assert (t <> TEof) as N by (intros ->; discriminate). specialize (S N). lia. }
  destruct b; [|discriminate]. destruct t; discriminate.
Qed.
Lemma conf_token_size : forall f b l t l', conf_token f b l = Got (t, l') -> (size l' <= size l)%nat /\ (t <> TEof -> (size l' < size l)%nat).
Proof.
  intros f; induction f as [|f IH]; intros b l t l' H; [discriminate|]. cbn [conf_token] in H. fold (lexc l) in H. destruct (lexc l) as [|u l1] eqn:X; [discriminate|].
  destruct (lex_shrinks l u l1 X) as [S1 S2].
  destruct (is_comment u) eqn:C.
  { destruct b; [discriminate|]. apply IH in H. split; [lia|]. intros N. apply H in N. lia. }
  destruct (is_spec 45 u) eqn:M.
  { destruct b; [discriminate|]. apply IH in H. split; [lia|]. intros N. apply H in N. lia. }
  destruct b; [|injection H as H1 H2; subst; auto].
  destruct u; try discriminate; injection H as H1 H2; subst; (split; [lia|]; intros _; apply S2; discriminate).
Qed.
Lemma items_size : forall f t l x l', items f t l = Got (x, l') -> (size l' <= size l)%nat.
Proof.
  intros f; induction f as [|f IH]; intros t l x l' H; [discriminate|]. cbn [items] in H.
  assert (G : is_spec 59 t = true /\ l' = l \/ exists t' l1 y l2, conf_token f false l = Got (t', l1) /\ items f t' l1 = Got (y, l2) /\ l' = l2).
  { destruct t; try discriminate; destruct (is_spec 59 _) eqn:E; try (injection H as H1 H2; subst; left; auto);
      (right; destruct (conf_token f false l) as [| | |[t' l1]] eqn:T; try discriminate; cbn [andthen fst snd] in H;
       destruct (items f t' l1) as [| | |[y l2]] eqn:I; try discriminate; cbn [andthen fst snd] in H; destruct (item_init _); try discriminate; cbn in H; injection H as H1 H2; subst; eauto 10). }
  destruct G as [[_ ->]|(t' & l1 & y & l2 & T & I & ->)]; [lia|]. apply conf_token_size in T. apply IH in I. lia.
Qed.
Lemma andthen_fuel : forall {A B} (r : result A) (f : A -> result B), r <> NoFuel -> (forall a, r = Got a -> f a <> NoFuel) -> andthen r f <> NoFuel.
Proof. intros A B r f H G. destruct r; cbn; try discriminate; auto. Qed.
Lemma item_init_fuel : forall t, item_init t <> NoFuel.
Proof.
  intros t; destruct t; cbn [item_init]; try discriminate.
  - destruct (sign s) as [n d]. destruct n; match goal with |- context [if ?c then _ else _] => destruct c end; discriminate.
  - destruct (sign s) as [n d]. destruct (split_dot d). discriminate.
  - destruct n as [|[|n]]; discriminate.
  - destruct n as [|[|n]]; discriminate.
Qed.
Lemma items_fuel : forall f t l, (size l + 2 <= f)%nat -> items f t l <> NoFuel.
Proof.
  intros f; induction f as [|f IH]; intros t l L; [lia|]. cbn [items].
  assert (G : andthen (conf_token f false l) (fun x => andthen (items f (fst x) (snd x)) (fun y => andthen (item_init t) (fun i => Got (i :: fst y, snd y)))) <> NoFuel).
  { apply andthen_fuel; [apply conf_token_fuel; lia|]. intros [t' l'] T. cbn [fst snd]. apply andthen_fuel.
    - destruct (conf_token_size _ _ _ _ _ T) as [S1 S2]. destruct (match t' with TEof => true | _ => false end) eqn:E.
      + destruct t'; try discriminate. destruct f; [lia|]. discriminate.
      + apply IH. specialize (S2 ltac:(intros ->; discriminate)). lia.
    - intros y Y. apply andthen_fuel; [apply item_init_fuel|]. discriminate. }
  destruct t; try discriminate; try exact G; destruct (is_spec 59 _); try discriminate; exact G.
Qed.
Lemma load_loop_size : forall f cf cur l cf' l', load_loop f cf cur l = Got (cf', l') -> (size l' <= size l)%nat.
Proof.
  intros f; induction f as [|f IH]; intros cf cur l cf' l' H; [discriminate|]. cbn [load_loop] in H.
  destruct (conf_token f false l) as [| | |[t l1]] eqn:T; try discriminate. cbn [andthen fst snd] in H. apply conf_token_size in T.
  destruct t; try discriminate; try (injection H as H1 H2; subst; lia).
  - destruct (conf_token f false l1) as [| | |[t l2]] eqn:T2; try discriminate. cbn [andthen fst snd] in H. apply conf_token_size in T2.
    destruct (is_spec 123 t).
    + destruct (same _ _); [|discriminate]. destruct (load_loop f _ _ l2) as [| | |[cf3 l3]] eqn:X; try discriminate. cbn [andthen fst snd] in H.
      apply IH in X. apply IH in H. lia.
    + destruct (items f t l2) as [| | |[its l3]] eqn:X; try discriminate. cbn [andthen fst snd] in H. apply items_size in X. apply IH in H. lia.
  - destruct (c =? 125); [|discriminate]. destruct (same _ _); [discriminate|]. injection H as H1 H2; subst; lia.
Qed.
Lemma load_loop_fuel : forall f cf cur l, (size l + 2 <= f)%nat -> load_loop f cf cur l <> NoFuel.
Proof.
  intros f; induction f as [|f IH]; intros cf cur l L; [lia|]. cbn [load_loop]. apply andthen_fuel; [apply conf_token_fuel; lia|].
  intros [t l1] T. cbn [fst snd]. apply conf_token_size in T. destruct t; try discriminate.
  - assert (S1 : (size l1 < size l)%nat) by (apply T; discriminate). apply andthen_fuel; [apply conf_token_fuel; lia|].
    intros [t l2] T2. cbn [fst snd]. apply conf_token_size in T2. destruct (is_spec 123 t).
    + destruct (same _ _); [|discriminate]. apply andthen_fuel; [apply IH; lia|]. intros [cf3 l3] X. cbn [fst snd]. apply load_loop_size in X. apply IH. lia.
    + apply andthen_fuel; [apply items_fuel; lia|]. intros [its l3] X. cbn [fst snd]. apply items_size in X. apply IH. lia.
  - destruct (c =? 125); [|discriminate]. destruct (same _ _); discriminate.
Qed.
Lemma load_total : forall file, load file <> NoFuel.
Proof.
  intros [l|]; [|discriminate]. unfold load. apply andthen_fuel; [|discriminate]. apply load_loop_fuel. unfold size. cbn [rest]. lia.
Qed.

(** ** The tokens one after the other *)
Definition toks (l : lx) (ts : list token) : Prop := plain (rest l) /\ exists us, lexes conf_keywords conf_hooks l us /\ without_comments us ts.
Definition split_token (t : token) : list token :=
  match t with
  | TDec s => if fst (sign s) then [TSpec 45; TDec (snd (sign s))] else [t]
  | TReal s => if fst (sign s) then [TSpec 45; TReal (snd (sign s))] else [t]
  | _ => [t]
  end.
Definition good (t : token) : Prop :=
  match t with
  | TDec s => exists d, d <> [] /\ Forall dec_digit d /\ (s = d \/ s = 45 :: d)
  | TReal s => exists a b, a <> [] /\ Forall dec_digit a /\ (s = a ++ 46 :: b \/ s = 45 :: a ++ 46 :: b)
  | TId s => word s
  | TSpec c => c <> 45
  | TTag 1 s => exists c, s = [c]
  | TTag 2 s => s <> []
  | _ => True
  end.
Lemma lex_inv : forall l t l', plain (rest l) -> lexc l = LTok t l' -> plain (rest l') /\ ((t = TEof /\ l' = None) \/ (t <> TEof /\ (t <> TSpec 45 -> t <> T_comment -> good t))).
Proof.
  intros l t l' P H. unfold lexc in H. rewrite lex_left in H.
  destruct (token_inv _ _ _ conf_hooks_ok _ _ _ P H) as [(E1 & E2 & _)|(N & b & s & r & E & B & SP & EN & R)].
  - subst. split; [constructor|auto].
  - split; [rewrite E in P; rewrite R; apply plain_app_r in P; apply plain_app_r in P; exact P|]. right. split; [exact N|]. intros N1 N2.
    destruct SP as [s W _|i s NE|t s NU|t s OT]; cbn [good].
    + exact W.
    + exact I.
    + destruct NU; cbn [good]; auto.
      * exists [48]. repeat split; auto; [discriminate|]. repeat constructor; unfold dec_digit; lia.
      * exists (c :: s). repeat split; auto; [discriminate|]. constructor; [unfold dec_digit; lia|assumption].
      * exists a, b0. auto.
    + destruct OT; cbn [good T_str T_char T_comment]; auto; try (intros X; subst; elim N1; reflexivity); try (eexists; reflexivity); try discriminate; try (elim N2; reflexivity).
Qed.
Lemma lex_end_none : forall l l', plain (rest l) -> lexc l = LTok TEof l' -> l' = None.
Proof. intros l l' P H. destruct (lex_inv _ _ _ P H) as [_ [[_ E]|[N _]]]; [exact E|elim N; reflexivity]. Qed.
Lemma is_comment_iff : forall t, is_comment t = true <-> t = T_comment.
Proof.
  intros t. split; [|intros ->; reflexivity]. destruct t; try discriminate. destruct n as [|[|[|n]]]; try discriminate. destruct s; [reflexivity|discriminate].
Qed.
Lemma is_spec_iff : forall c t, is_spec c t = true <-> t = TSpec c.
Proof. intros c t. split; [|intros ->; apply N.eqb_refl]. destruct t; try discriminate. cbn. intros H. apply N.eqb_eq in H. subst. reflexivity. Qed.
Lemma is_comment_not : forall t, t <> T_comment -> is_comment t = false.
Proof. intros t N. destruct (is_comment t) eqn:E; [apply is_comment_iff in E; contradiction|reflexivity]. Qed.
Lemma is_spec_not : forall c t, t <> TSpec c -> is_spec c t = false.
Proof. intros c t N. destruct (is_spec c t) eqn:E; [apply is_spec_iff in E; contradiction|reflexivity]. Qed.

(** Tokens that are there are read. *)
Lemma toks_next : forall l t ts, toks l (t :: ts) -> t <> TSpec 45 ->
  exists l', (forall f, (size l + 1 <= f)%nat -> conf_token f false l = Got (t, l')) /\ toks l' ts /\ (size l' < size l)%nat.
Proof.
  intros l t ts (P & us & L & W) N. revert W P. induction L as [l l' X|l u l' us X NE L IH]; intros W P; [inversion W|].
  fold (lexc l) in X. destruct (lex_inv _ _ _ P X) as [P' _]. pose proof (proj2 (lex_shrinks _ _ _ X) NE) as S.
  inversion W as [|us' ts' W'|u' us' ts' N1 N2 W']; subst.
  - destruct (IH W' P') as (l2 & G1 & G2 & G3). exists l2. repeat split; try apply G2; [|lia].
    intros [|f] F; [lia|]. cbn [conf_token]. fold (lexc l). rewrite X. replace (is_comment T_comment) with true by reflexivity. apply G1. lia.
  - exists l'. split; [|split; [split; [exact P'|eauto]|exact S]]. intros [|f] F; [lia|]. cbn [conf_token]. fold (lexc l). rewrite X.
    rewrite (is_comment_not t N1), (is_spec_not 45 t N). reflexivity.
Qed.
Lemma toks_minus : forall l t ts, toks l (TSpec 45 :: t :: ts) ->
  exists l', (forall f, (size l + 1 <= f)%nat -> conf_token f false l = match t with TDec s => Got (TDec (45 :: s), l') | TReal s => Got (TReal (45 :: s), l') | _ => Failed end)
    /\ toks l' ts /\ (size l' < size l)%nat.
Proof.
  intros l t ts (P & us & L & W). revert W P. induction L as [l l' X|l u l' us X NE L IH]; intros W P; [inversion W|].
  fold (lexc l) in X. destruct (lex_inv _ _ _ P X) as [P' _]. pose proof (proj2 (lex_shrinks _ _ _ X) NE) as S.
  inversion W as [|us' ts' W'|u' us' ts' N1 N2 W']; subst.
  - destruct (IH W' P') as (l2 & G1 & G2 & G3). exists l2. repeat split; try apply G2; [|lia].
    intros [|f] F; [lia|]. cbn [conf_token]. fold (lexc l). rewrite X. replace (is_comment T_comment) with true by reflexivity. apply G1. lia.
  - clear IH. specialize (N2 eq_refl). inversion L as [l0 l2 X2|l0 u l2 us2 X2 NE2 L2]; subst; [inversion W'|].
    fold (lexc l') in X2. destruct (lex_inv _ _ _ P' X2) as [P2 _]. pose proof (proj2 (lex_shrinks _ _ _ X2) NE2) as S2.
    cbn [hd] in N2. inversion W' as [|us' ts' W2|u' us' ts' N3 N4 W2]; subst; [elim N2; reflexivity|].
    exists l2. split; [|split; [split; [exact P2|eauto]|lia]]. intros [|[|f]] F; [lia|lia|]. cbn [conf_token]. fold (lexc l). rewrite X.
    replace (is_comment (TSpec 45)) with false by reflexivity. replace (is_spec 45 (TSpec 45)) with true by reflexivity.
    fold (lexc l'). rewrite X2. rewrite (is_comment_not t N3). destruct t; try reflexivity. cbn [is_spec]. destruct (45 =? c); reflexivity.
Qed.
Lemma toks_end : forall l, toks l [] -> (forall f, (size l + 1 <= f)%nat -> conf_token f false l = Got (TEof, None)).
Proof.
  intros l (P & us & L & W). revert W P. induction L as [l l' X|l u l' us X NE L IH]; intros W P f F; fold (lexc l) in X; destruct f as [|f]; try lia; cbn [conf_token]; fold (lexc l); rewrite X.
  - rewrite (lex_end_none _ _ P X). reflexivity.
  - inversion W as [|us' ts' W'|]; subst. replace (is_comment T_comment) with true by reflexivity. apply IH; auto.
    + apply (lex_inv _ _ _ P X).
    + pose proof (proj2 (lex_shrinks _ _ _ X) NE). lia.
Qed.
Lemma toks_none : toks None [].
Proof. split; [constructor|]. exists []. split; [eapply lexes_end; reflexivity|constructor]. Qed.

(** What is read is there. *)
Lemma sign_digits : forall d r, Forall dec_digit d -> d <> [] -> sign (d ++ r) = (false, d ++ r).
Proof. intros [|c d] r F N; [elim N; reflexivity|]. pose proof (Forall_inv F) as C. unfold dec_digit in C. cbn [app sign]. replace (c =? 45) with false by lia. reflexivity. Qed.
Lemma token_read : forall f l t l', plain (rest l) -> conf_token f false l = Got (t, l') ->
  plain (rest l') /\ ((t = TEof /\ l' = None /\ toks l []) \/ (t <> TEof /\ good t /\ forall ts, toks l' ts -> toks l (split_token t ++ ts))).
Proof.
  intros f; induction f as [|f IH]; intros l t l' P H; [discriminate|]. cbn [conf_token] in H. fold (lexc l) in H.
  destruct (lexc l) as [|u l1] eqn:X; [discriminate|]. destruct (lex_inv _ _ _ P X) as [P1 D].
  destruct (is_comment u) eqn:C.
  { apply is_comment_iff in C. subst u. destruct (IH l1 t l' P1 H) as [P2 [(E1 & E2 & _ & us & E3 & E4)|(N & G & E)]]; (split; [exact P2|]).
    - left. split; [exact E1|]. split; [exact E2|]. split; [exact P|]. exists (T_comment :: us). split; [eapply lexes_cons; [exact X|discriminate|exact E3]|constructor; exact E4].
    - right. split; [exact N|]. split; [exact G|]. intros ts T. destruct (E ts T) as (_ & us & E3 & E4). split; [exact P|].
      exists (T_comment :: us). split; [eapply lexes_cons; [exact X|discriminate|exact E3]|constructor; exact E4]. }
  destruct (is_spec 45 u) eqn:M.
  { apply is_spec_iff in M. subst u. destruct f as [|f]; [discriminate|]. cbn [conf_token] in H. fold (lexc l1) in H.
    destruct (lexc l1) as [|u l2] eqn:X2; [discriminate|]. destruct (lex_inv _ _ _ P1 X2) as [P2 D2].
    destruct (is_comment u) eqn:C2; [discriminate|]. destruct (is_spec 45 u) eqn:M2; [discriminate|].
    assert (K : exists s, (u = TDec s /\ t = TDec (45 :: s) \/ u = TReal s /\ t = TReal (45 :: s)) /\ l' = l2) by (destruct u; try discriminate; injection H as H1 H2; subst; eauto 6).
    destruct K as (s & K & ->). split; [exact P2|]. right. assert (U : u <> TEof) by (destruct K as [[-> _]|[-> _]]; discriminate).
    assert (GU : good u) by (destruct D2 as [[D2 _]|[_ D2]]; [contradiction|apply D2; [intros E; subst u; discriminate|intros E; subst u; discriminate]]).
    split; [destruct K as [[_ ->]|[_ ->]]; discriminate|]. split.
    - destruct K as [[-> ->]|[-> ->]]; cbn [good] in *.
      + destruct GU as (d & G1 & G2 & [G3|G3]); subst s; [exists d; auto|]. exfalso. clear - D2 G1 G2 X2 P1.
        unfold lexc in X2. rewrite lex_left in X2. destruct (token_inv _ _ _ conf_hooks_ok _ _ _ P1 X2) as [(E1 & _)|(_ & b & s & r & _ & _ & SP & _)]; [discriminate|].
        inversion SP as [| |t s' NU|t s' OT]; subst; [|inversion OT]. inversion NU as [|c s2 C F| | |]; subst; lia.
      + destruct GU as (a & b & G1 & G2 & [G3|G3]); subst s; [exists a, b; auto|]. exfalso. clear - G1 G2 X2 P1.
        unfold lexc in X2. rewrite lex_left in X2. destruct (token_inv _ _ _ conf_hooks_ok _ _ _ P1 X2) as [(E1 & _)|(_ & b0 & s & r & _ & _ & SP & _)]; [discriminate|].
        inversion SP as [| |t s' NU|t s' OT]; subst; [|inversion OT]. inversion NU as [| | | |a1 b1 A1 A2 A3 A4 A5]; subst.
        destruct a1 as [|c a1]; [elim A1; reflexivity|]. apply Forall_inv in A2. unfold dec_digit in A2. cbn [app] in *.
        match goal with E : _ :: _ = 45 :: _ |- _ => injection E as E1 E2; subst c end. lia.
    - intros ts (_ & us & L & W). split; [exact P|]. exists (TSpec 45 :: u :: us). split.
      + eapply lexes_cons; [exact X|discriminate|]. eapply lexes_cons; [exact X2|exact U|exact L].
      + assert (NC : u <> T_comment) by (intros E; subst u; discriminate). destruct K as [[-> ->]|[-> ->]]; cbn [split_token sign fst snd app];
          replace (45 =? 45) with true by reflexivity; cbn [fst snd app]; (apply wc_token; [discriminate|intros _; cbn [hd]; exact NC|apply wc_token; [exact NC|discriminate|exact W]]). }
  injection H as H1 H2. subst u l1. split; [exact P1|]. destruct D as [[D1 D2]|[D1 D2]].
  - left. subst. repeat split; auto. exists []. split; [eapply lexes_end; exact X|constructor].
  - right. assert (G : good t) by (apply D2; [intros E; subst t; discriminate|intros E; subst t; discriminate]). split; [exact D1|]. split; [exact G|].
    intros ts (_ & us & L & W). split; [exact P|].
    assert (SP : split_token t = [t]).
    { destruct t; try reflexivity; cbn [good split_token] in *.
      - destruct G as (d & G1 & G2 & [G3|G3]); subst s; [rewrite <- (app_nil_r d), sign_digits by auto; reflexivity|]. exfalso. clear - D2 G1 G2 X P.
        unfold lexc in X. rewrite lex_left in X. destruct (token_inv _ _ _ conf_hooks_ok _ _ _ P X) as [(E1 & _)|(_ & b & s & r & _ & _ & SP & _)]; [discriminate|].
        inversion SP as [| |t s' NU|t s' OT]; subst; [|inversion OT]. inversion NU as [|c s2 C F| | |]; subst; lia.
      - destruct G as (a & b & G1 & G2 & [G3|G3]); subst s; [rewrite sign_digits by auto; reflexivity|]. exfalso. clear - G1 G2 X P.
        unfold lexc in X. rewrite lex_left in X. destruct (token_inv _ _ _ conf_hooks_ok _ _ _ P X) as [(E1 & _)|(_ & b0 & s & r & _ & _ & SP & _)]; [discriminate|].
        inversion SP as [| |t s' NU|t s' OT]; subst; [|inversion OT]. inversion NU as [| | | |a1 b1 A1 A2 A3 A4 A5]; subst.
        destruct a1 as [|c a1]; [elim A1; reflexivity|]. apply Forall_inv in A2. unfold dec_digit in A2. cbn [app] in *.
        match goal with E : _ :: _ = 45 :: _ |- _ => injection E as E1 E2; subst c end. lia. }
    rewrite SP. exists (t :: us). split; [eapply lexes_cons; [exact X|exact D1|exact L]|]. cbn [app]. apply wc_token; [intros E; subst t; discriminate|intros E; subst t; discriminate|exact W].
Qed.

(** ** Items *)
Lemma item_read : forall i p l ts, item_tokens i p -> toks l (p ++ ts) ->
  exists t l', (forall f, (size l + 1 <= f)%nat -> conf_token f false l = Got (t, l')) /\ toks l' ts /\ (size l' < size l)%nat /\
    item_init t = Got i /\ t <> TEof /\ is_spec 59 t = false /\ is_spec 123 t = false.
Proof.
  intros i p l ts I T. destruct I as [s|c| | |s D V|s D V|a b N D|a b D]; cbn [app] in T;
    try (destruct (toks_next _ _ _ T ltac:(discriminate)) as (l' & G1 & G2 & G3); eexists; exists l'; split; [exact G1|]; split; [exact G2|]; split; [exact G3|];
         split; [|split; [discriminate|split; reflexivity]]);
    try (destruct (toks_minus _ _ _ T) as (l' & G1 & G2 & G3); eexists; exists l'; split; [exact G1|]; split; [exact G2|]; split; [exact G3|];
         split; [|split; [discriminate|split; reflexivity]]); try reflexivity.
  - cbn [item_init]. destruct s as [|c s].
    + reflexivity.
    + rewrite <- (app_nil_r (c :: s)) at 1. rewrite sign_digits by (auto; discriminate). rewrite app_nil_r, numeral_positional.
      replace ((- 2 ^ 63 <=? Z.of_N (positional 10 (c :: s))) && (Z.of_N (positional 10 (c :: s)) <? 2 ^ 63))%Z with true by (clear - V; lia). reflexivity.
  - cbn [item_init sign]. replace (45 =? 45) with true by reflexivity. rewrite numeral_positional.
    replace ((- 2 ^ 63 <=? - Z.of_N (positional 10 s)) && (- Z.of_N (positional 10 s) <? 2 ^ 63))%Z with true by (clear - V; lia). reflexivity.
  - cbn [item_init]. rewrite sign_digits by auto. rewrite split_dot_app by exact D. rewrite numeral_positional. reflexivity.
  - cbn [item_init sign]. replace (45 =? 45) with true by reflexivity. rewrite split_dot_app by exact D. rewrite numeral_positional. reflexivity.
Qed.
Lemma item_made : forall t i, good t -> item_init t = Got i -> item_tokens i (split_token t).
Proof.
  intros t i G H. destruct t; try discriminate; cbn [item_init good split_token] in *.
  - destruct G as (d & G1 & G2 & [G3|G3]); subst s.
    + rewrite <- (app_nil_r d) in H at 1. rewrite <- (app_nil_r d) at 1. rewrite sign_digits in * by auto. rewrite app_nil_r in *. rewrite numeral_positional in H.
      destruct ((- 2 ^ 63 <=? Z.of_N (positional 10 d)) && (Z.of_N (positional 10 d) <? 2 ^ 63))%Z eqn:B; [|discriminate]. injection H as H; subst i.
      apply it_int; [exact G2|]. clear - B. lia.
    + cbn [sign] in *. replace (45 =? 45) with true in * by reflexivity. rewrite numeral_positional in H.
      destruct ((- 2 ^ 63 <=? - Z.of_N (positional 10 d)) && (- Z.of_N (positional 10 d) <? 2 ^ 63))%Z eqn:B; [|discriminate]. injection H as H; subst i. cbn [fst snd].
      apply it_minus_int; [exact G2|]. clear - B. lia.
  - destruct G as (a & b & G1 & G2 & [G3|G3]); subst s.
    + rewrite sign_digits in * by auto. rewrite split_dot_app in H by exact G2. rewrite numeral_positional in H. injection H as H; subst i. apply it_real; auto.
    + cbn [sign] in *. replace (45 =? 45) with true in * by reflexivity. rewrite split_dot_app in H by exact G2. rewrite numeral_positional in H. injection H as H; subst i.
      apply it_minus_real; auto.
  - destruct n as [|[|n]]; try discriminate; injection H as H; subst i; constructor.
  - destruct n as [|[|n]]; try discriminate; injection H as H; subst i; [constructor|]. destruct G as (c & ->). constructor.
Qed.
Lemma items_step : forall f t l, t <> TEof -> is_spec 59 t = false -> items (S f) t l =
  andthen (conf_token f false l) (fun x => andthen (items f (fst x) (snd x)) (fun y => andthen (item_init t) (fun i => Got (i :: fst y, snd y)))).
Proof. intros f t l N S. cbn [items]. destruct t; try (rewrite S; reflexivity). elim N; reflexivity. Qed.
Lemma items_read : forall its parts, Forall2 item_tokens its parts -> forall l ts, toks l (concat parts ++ TSpec 59 :: ts) ->
  exists t l1 l', (forall f, (size l + 1 <= f)%nat -> conf_token f false l = Got (t, l1)) /\ is_spec 123 t = false /\
    (forall f, (size l + 1 <= f)%nat -> items f t l1 = Got (its, l')) /\ toks l' ts /\ (size l' < size l)%nat.
Proof.
  intros its parts F; induction F as [|i p its parts I F IH]; intros l ts T; cbn [concat app] in T.
  - destruct (toks_next _ _ _ T ltac:(discriminate)) as (l' & G1 & G2 & G3). exists (TSpec 59), l', l'. repeat split; auto; try apply G2.
    intros [|f] L; [lia|]. reflexivity.
  - rewrite <- app_assoc in T. destruct (item_read i p l _ I T) as (t & l1 & G1 & G2 & G3 & G4 & G5 & G6 & G7).
    destruct (IH l1 ts G2) as (t2 & l2 & l' & K1 & K2 & K3 & K4 & K5). exists t, l1, l'. repeat split; auto; try apply K4; [|lia].
    intros [|f] L; [lia|]. rewrite items_step by auto. rewrite K1 by lia. cbn [andthen fst snd]. rewrite K3 by lia. cbn [andthen fst snd]. rewrite G4. reflexivity.
Qed.
Lemma items_made : forall f t l its l', plain (rest l) -> good t -> items f t l = Got (its, l') ->
  plain (rest l') /\ exists parts, Forall2 item_tokens its parts /\
    forall ts, toks l' ts -> exists us, toks l us /\ split_token t ++ us = concat parts ++ TSpec 59 :: ts.
Proof.
  intros f; induction f as [|f IH]; intros t l its l' P G H; [discriminate|]. destruct (is_spec 59 t) eqn:S.
  - apply is_spec_iff in S. subst t. injection H as H1 H2; subst. split; [exact P|]. exists []. split; [constructor|]. intros ts T. exists ts. auto.
  - assert (N : t <> TEof) by (intros E; subst t; discriminate). rewrite items_step in H by auto.
    destruct (conf_token f false l) as [| | |[t1 l1]] eqn:T; try discriminate. cbn [andthen fst snd] in H.
    destruct (items f t1 l1) as [| | |[its1 l2]] eqn:R; try discriminate. cbn [andthen fst snd] in H.
    destruct (item_init t) as [| | |i] eqn:I; try discriminate. cbn [andthen] in H. injection H as H1 H2; subst its l2.
    destruct (token_read _ _ _ _ P T) as [P1 [(E & _)|(N1 & G1 & E)]]; [subst t1; destruct f; discriminate|].
    destruct (IH _ _ _ _ P1 G1 R) as [P2 (parts & F & K)]. split; [exact P2|]. exists (split_token t :: parts). split; [constructor; [apply item_made; assumption|exact F]|].
    intros ts TS. destruct (K ts TS) as (us & U1 & U2). exists (split_token t1 ++ us). split; [apply E; exact U1|]. cbn [concat]. rewrite U2, app_assoc. reflexivity.
Qed.

(** ** Domains *)
Lemma same_iff : forall a b, plain a -> plain b -> same a b = true <-> a = b.
Proof.
  intros a b A B. unfold same. rewrite Z.eqb_eq. rewrite strcmp_eq; [cbn; reflexivity| | |discriminate]; cbn [s_bytes];
    (eapply Forall_impl; [|eassumption]); intros c C; unfold is_byte; cbn beta in C; lia.
Qed.
Lemma word_plain : forall s, LexSpec.word s -> plain s.
Proof.
  intros s [(c & r & -> & L & F) _]. constructor; [unfold letter in L; lia|]. eapply Forall_impl; [|exact F]. intros d D. unfold letter, dec_digit in D. lia.
Qed.
Lemma main_plain : plain main.
Proof. repeat (constructor; [reflexivity|]). constructor. Qed.
Lemma toks_words : forall l ts, toks l ts -> forall s, In (TId s) ts -> LexSpec.word s.
Proof.
  intros l ts (P & us & L & W). revert ts W P. induction L as [l l' X|l u l' us X NE L IH]; intros ts W P s I.
  - inversion W; subst. elim I.
  - fold (lexc l) in X. destruct (lex_inv _ _ _ P X) as [P' D]. inversion W as [|us' ts' W'|u' us' ts' N1 N2 W']; subst.
    + apply (IH ts W' P' s I).
    + destruct I as [I|I]; [|apply (IH ts' W' P' s I)]. subst u. destruct D as [[D _]|[_ D]]; [discriminate|]. apply D; discriminate.
Qed.
Lemma add_last : forall cf n cs c, add_command (cf ++ [(n, cs)]) (length cf) c = cf ++ [(n, cs ++ [c])].
Proof. intros cf n cs c; induction cf as [|d cf IH]; [reflexivity|]. cbn [app length add_command]. rewrite IH. reflexivity. Qed.
Lemma name_last : forall cf n cs, name_of (cf ++ [(n, cs)]) (length cf) = n.
Proof. intros cf n cs. unfold name_of. rewrite app_nth2 by lia. rewrite Nat.sub_diag. reflexivity. Qed.

Lemma commands_read : forall n, n <> main -> plain n -> forall cmds parts, Forall2 command_tokens cmds parts ->
  forall l tail, tail = [] \/ (exists ts, tail = TSpec 125 :: ts) -> toks l (concat parts ++ tail) ->
  exists l', toks l' (tl tail) /\ (size l' <= size l)%nat /\
    forall f cf cs, (size l + 2 <= f)%nat -> load_loop f (cf ++ [(n, cs)]) (length cf) l = Got (cf ++ [(n, cs ++ cmds)], l').
Proof.
  intros n N PN cmds parts F; induction F as [|c p cmds parts C F IH]; intros l tail TA T; cbn [concat app] in T.
  - destruct TA as [->|(ts & ->)].
    + exists None. split; [apply toks_none|]. split; [cbn; lia|]. intros [|f] cf cs L; [lia|]. cbn [load_loop]. rewrite (toks_end l T) by lia. cbn [andthen fst snd].
      rewrite app_nil_r. reflexivity.
    + destruct (toks_next _ _ _ T ltac:(discriminate)) as (l' & G1 & G2 & G3). exists l'. split; [exact G2|]. split; [lia|].
      intros [|f] cf cs L; [lia|]. cbn [load_loop]. rewrite G1 by lia. cbn [andthen fst snd]. replace (125 =? 125) with true by reflexivity.
      rewrite name_last, app_nil_r. destruct (same n main) eqn:S; [|reflexivity]. apply same_iff in S; [contradiction|exact PN|apply main_plain].
  - destruct C as (q & Q1 & Q2). subst p. cbn [app] in T. repeat rewrite <- app_assoc in T. cbn [app] in T.
    destruct (toks_next _ _ _ T ltac:(discriminate)) as (l1 & G1 & G2 & G3).
    destruct (items_read _ _ Q1 l1 _ G2) as (t & l2 & l3 & K1 & K2 & K3 & K4 & K5).
    destruct (IH l3 tail TA K4) as (l' & H1 & H2 & H3). exists l'. split; [exact H1|]. split; [lia|].
    intros [|f] cf cs L; [lia|]. cbn [load_loop]. rewrite G1 by lia. cbn [andthen fst snd]. rewrite K1 by lia. cbn [andthen fst snd]. rewrite K2, K3 by lia.
    cbn [andthen fst snd]. rewrite add_last, H3 by lia. rewrite <- app_assoc. destruct c; reflexivity.
Qed.
Lemma command_tokens_nonempty : forall c ts, command_tokens c ts -> exists r, ts = TId (fst c) :: r.
Proof. intros c ts (q & _ & ->). eauto. Qed.
Lemma entry_tokens_nonempty : forall e ts, entry_tokens e ts -> exists s r, ts = TId s :: r.
Proof. intros [c|d] ts H; [destruct H as (q & _ & ->); eauto|destruct H as (_ & q & _ & ->); eauto]. Qed.
Lemma concat_entries_nil : forall es parts, Forall2 entry_tokens es parts -> concat parts = [] -> es = [] /\ parts = [].
Proof. intros es parts F H. destruct F as [|e p es parts E F]; [auto|]. destruct (entry_tokens_nonempty _ _ E) as (s & r & ->). discriminate. Qed.
Lemma last_split : forall {A} (a p q : list A) x, a ++ [x] = p ++ q -> q = [] \/ exists q', q = q' ++ [x] /\ a = p ++ q'.
Proof.
  intros A a p q x H. destruct q as [|y q]; [auto|]. right. destruct (@exists_last _ (y :: q) ltac:(discriminate)) as (q' & z & E). rewrite E in *.
  rewrite app_assoc in H. apply app_inj_tail in H. destruct H as [H1 H2]. subst. eauto.
Qed.
Definition cmds_of (es : list entry) : list command := flat_map (fun e => match e with Command c => [c] | Domain _ => [] end) es.
Definition doms_of (es : list entry) : list domain := flat_map (fun e => match e with Domain d => [d] | Command _ => [] end) es.
Lemma main_is_main : forall cs ds, same (name_of ((main, cs) :: ds) 0) main = true.
Proof. intros. reflexivity. Qed.

Lemma entries_read : forall es parts, Forall2 entry_tokens es parts -> forall l ts, toks l ts -> ts = concat parts \/ ts ++ [TSpec 125] = concat parts ->
  forall f cs ds, (size l + 2 <= f)%nat -> load_loop f ((main, cs) :: ds) 0 l = Got ((main, cs ++ cmds_of es) :: ds ++ doms_of es, None).
Proof.
  intros es parts F; induction F as [|e p es parts E F IH]; intros l ts T TS f cs ds L; cbn [concat] in TS.
  - destruct TS as [->|TS]; [|destruct ts; discriminate]. destruct f as [|f]; [lia|]. cbn [load_loop]. rewrite (toks_end l T) by lia. cbn [andthen fst snd cmds_of doms_of flat_map].
    rewrite !app_nil_r. reflexivity.
  - destruct e as [c|[n cmds]].
    + assert (K : exists ts', ts = p ++ ts' /\ (ts' = concat parts \/ ts' ++ [TSpec 125] = concat parts)).
      { destruct TS as [->|TS]; [eauto|]. destruct (last_split _ _ _ _ TS) as [Q|(q' & Q1 & Q2)]; [|subst; eauto].
        exfalso. rewrite Q, app_nil_r in TS. destruct E as (q & _ & E). rewrite E in TS. change (TId (fst c) :: concat q ++ [TSpec 59]) with ((TId (fst c) :: concat q) ++ [TSpec 59]) in TS.
        apply app_inj_tail in TS. destruct TS as [_ TS]. discriminate. }
      destruct K as (ts' & -> & TS'). destruct E as (q & Q1 & ->). cbn [app] in T. rewrite <- app_assoc in T. cbn [app] in T.
      destruct (toks_next _ _ _ T ltac:(discriminate)) as (l1 & G1 & G2 & G3).
      destruct (items_read _ _ Q1 l1 _ G2) as (t & l2 & l3 & K1 & K2 & K3 & K4 & K5).
      destruct f as [|f]; [lia|]. cbn [load_loop]. rewrite G1 by lia. cbn [andthen fst snd]. rewrite K1 by lia. cbn [andthen fst snd]. rewrite K2, K3 by lia.
      cbn [andthen fst snd add_command]. rewrite (IH l3 ts' K4 TS') by lia. cbn [cmds_of doms_of flat_map]. rewrite <- app_assoc. destruct c; reflexivity.
    + destruct E as (N & q & Q1 & Q2). cbn [fst snd] in *.
      assert (PN : plain n).
      { apply word_plain. apply (toks_words l ts T). destruct TS as [->|TS]; [rewrite Q2; left; reflexivity|]. rewrite Q2 in TS.
        assert (I : In (TId n) (ts ++ [TSpec 125])) by (rewrite TS; left; reflexivity). apply in_app_iff in I. destruct I as [I|[I|[]]]; [exact I|discriminate]. }
      assert (K : exists tail, ts = TId n :: TSpec 123 :: concat q ++ tail /\ (tail = [] \/ exists r, tail = TSpec 125 :: r) /\ (tl tail = concat parts \/ tl tail ++ [TSpec 125] = concat parts)).
      { destruct TS as [->|TS]; subst p.
        - exists (TSpec 125 :: concat parts). cbn [app]. rewrite <- app_assoc. eauto 6.
        - destruct (last_split _ _ _ _ TS) as [Q|(q' & Q3 & Q4)].
          + rewrite Q, app_nil_r in TS. change (TId n :: TSpec 123 :: concat q ++ [TSpec 125]) with ((TId n :: TSpec 123 :: concat q) ++ [TSpec 125]) in TS.
            apply app_inj_tail in TS. destruct TS as [TS _]. subst ts. exists []. rewrite app_nil_r. cbn [tl]. rewrite Q. auto.
          + subst ts. exists (TSpec 125 :: q'). cbn [app tl]. rewrite <- app_assoc. rewrite Q3. eauto 6. }
      destruct K as (tail & -> & TA & TS').
      destruct (toks_next _ _ _ T ltac:(discriminate)) as (l1 & G1 & G2 & G3). destruct (toks_next _ _ _ G2 ltac:(discriminate)) as (l2 & H1 & H2 & H3).
      destruct (commands_read n N PN _ _ Q1 l2 tail TA H2) as (l3 & K1 & K2 & K3).
      destruct f as [|f]; [lia|]. cbn [load_loop]. rewrite G1 by lia. cbn [andthen fst snd]. rewrite H1 by lia. cbn [andthen fst snd].
      replace (is_spec 123 (TSpec 123)) with true by reflexivity. rewrite main_is_main. rewrite K3 by lia. cbn [andthen fst snd app].
      rewrite (IH l3 (tl tail) K1 TS') by lia. cbn [cmds_of doms_of flat_map app]. rewrite <- app_assoc. reflexivity.
Qed.

Lemma add_names : forall cf cur c, map fst (add_command cf cur c) = map fst cf.
Proof. intros cf; induction cf as [|d cf IH]; intros [|cur] c; cbn [add_command map]; auto. rewrite IH. reflexivity. Qed.
Lemma names_grow : forall f cf cur l cf' l', load_loop f cf cur l = Got (cf', l') -> exists ext, map fst cf' = map fst cf ++ ext.
Proof.
  intros f; induction f as [|f IH]; intros cf cur l cf' l' H; [discriminate|]. cbn [load_loop] in H.
  destruct (conf_token f false l) as [| | |[t l1]] eqn:T; try discriminate. cbn [andthen fst snd] in H.
  destruct t; try discriminate; try (injection H as H1 H2; subst; exists []; rewrite app_nil_r; reflexivity).
  - destruct (conf_token f false l1) as [| | |[t l2]] eqn:T2; try discriminate. cbn [andthen fst snd] in H. destruct (is_spec 123 t).
    + destruct (same _ _); [|discriminate]. destruct (load_loop f _ _ l2) as [| | |[cf3 l3]] eqn:X; try discriminate. cbn [andthen fst snd] in H.
      apply IH in X. apply IH in H. destruct X as (e1 & X). destruct H as (e2 & H). rewrite H, X, map_app, <- !app_assoc. eauto.
    + destruct (items f t l2) as [| | |[its l3]] eqn:X; try discriminate. cbn [andthen fst snd] in H. apply IH in H. rewrite add_names in H. exact H.
  - destruct (c =? 125); [|discriminate]. destruct (same _ _); [discriminate|]. injection H as H1 H2; subst; exists []; rewrite app_nil_r; reflexivity.
Qed.
Lemma command_made : forall l t1 l1 s t l2 its l3 parts, split_token t1 = [TId s] ->
  (forall ts, toks l1 ts -> toks l (split_token t1 ++ ts)) -> (forall ts, toks l2 ts -> toks l1 (split_token t ++ ts)) ->
  Forall2 item_tokens its parts -> (forall ts, toks l3 ts -> exists us, toks l2 us /\ split_token t ++ us = concat parts ++ TSpec 59 :: ts) ->
  exists p, command_tokens (s, its) p /\ forall ts, toks l3 ts -> toks l (p ++ ts).
Proof.
  intros l t1 l1 s t l2 its l3 parts S1 R1 R2 F R3. exists (TId s :: concat parts ++ [TSpec 59]). split; [exists parts; auto|].
  intros ts T. destruct (R3 ts T) as (us & U1 & U2). apply R2 in U1. apply R1 in U1. rewrite S1, U2 in U1. cbn [app] in *. rewrite <- app_assoc. exact U1.
Qed.
Lemma commands_made : forall n, n <> main -> plain n -> forall f cf cs l cf' l', plain (rest l) ->
  load_loop f (cf ++ [(n, cs)]) (length cf) l = Got (cf', l') ->
  plain (rest l') /\ exists cmds parts, cf' = cf ++ [(n, cs ++ cmds)] /\ Forall2 command_tokens cmds parts /\
    ((l' = None /\ toks l (concat parts)) \/ forall ts, toks l' ts -> toks l (concat parts ++ TSpec 125 :: ts)).
Proof.
  intros n N PN f; induction f as [|f IH]; intros cf cs l cf' l' P H; [discriminate|]. cbn [load_loop] in H.
  destruct (conf_token f false l) as [| | |[t l1]] eqn:T; try discriminate. cbn [andthen fst snd] in H.
  destruct (token_read _ _ _ _ P T) as [P1 [(E1 & E2 & E3)|(N1 & G1 & E)]].
  - subst t l1. injection H as H1 H2; subst. split; [exact P1|]. exists [], []. rewrite app_nil_r. split; [reflexivity|]. split; [constructor|]. left. auto.
  - destruct t; try discriminate; [elim N1; reflexivity| |].
    + destruct (conf_token f false l1) as [| | |[t l2]] eqn:T2; try discriminate. cbn [andthen fst snd] in H. rewrite name_last in H.
      destruct (is_spec 123 t).
      { destruct (same n main) eqn:S; [|discriminate]. apply same_iff in S; [contradiction|exact PN|apply main_plain]. }
      destruct (items f t l2) as [| | |[its l3]] eqn:X; try discriminate. cbn [andthen fst snd] in H. rewrite add_last in H.
      destruct (token_read _ _ _ _ P1 T2) as [P2 [(E4 & _)|(N2 & G2 & E5)]]; [subst t; destruct f; discriminate|].
      destruct (items_made _ _ _ _ _ P2 G2 X) as [P3 (parts & F & K)]. destruct (command_made l (TId s) l1 s t l2 its l3 parts eq_refl E E5 F K) as (p & C & R).
      destruct (IH _ _ _ _ _ P3 H) as [P4 (cmds & ps & C1 & C2 & C3)]. split; [exact P4|]. exists ((s, its) :: cmds), (p :: ps).
      split; [rewrite C1, <- app_assoc; reflexivity|]. split; [constructor; assumption|]. cbn [concat]. destruct C3 as [[C3 C4]|C3]; [left; auto|]. right.
      intros ts TS. rewrite <- app_assoc. auto.
    + destruct (N.eqb_spec c 125) as [C|C]; [|discriminate]. subst c. rewrite name_last in H. destruct (same n main); [discriminate|]. injection H as H1 H2; subst.
      split; [exact P1|]. exists [], []. rewrite app_nil_r. split; [reflexivity|]. split; [constructor|]. right. exact E.
Qed.
Lemma toks_none_inv : forall ts, toks None ts -> ts = [].
Proof.
  intros ts (_ & us & L & W). inversion L as [l l' X|l u l' us' X NE L']; subst; [inversion W; reflexivity|]. cbn in X. injection X as X1 X2. subst. elim NE; reflexivity.
Qed.
Lemma entries_made : forall f cs ds l cf' l', plain (rest l) -> load_loop f ((main, cs) :: ds) 0 l = Got (cf', l') -> ~ In main (map fst (tl cf')) ->
  exists es parts, cf' = (main, cs ++ cmds_of es) :: ds ++ doms_of es /\ Forall2 entry_tokens es parts /\
    exists ts, toks l ts /\ (ts = concat parts \/ ts ++ [TSpec 125] = concat parts).
Proof.
  intros f; induction f as [|f IH]; intros cs ds l cf' l' P H NM; [discriminate|]. cbn [load_loop] in H.
  destruct (conf_token f false l) as [| | |[t l1]] eqn:T; try discriminate. cbn [andthen fst snd] in H.
  destruct (token_read _ _ _ _ P T) as [P1 [(E1 & E2 & E3)|(N1 & G1 & E)]].
  - subst t l1. injection H as H1 H2; subst. exists [], []. cbn [cmds_of doms_of flat_map]. rewrite !app_nil_r. split; [reflexivity|]. split; [constructor|]. exists []. auto.
  - destruct t; try discriminate; [elim N1; reflexivity| |].
    + destruct (conf_token f false l1) as [| | |[t l2]] eqn:T2; try discriminate. cbn [andthen fst snd] in H. rewrite main_is_main in H.
      destruct (token_read _ _ _ _ P1 T2) as [P2 D2]. destruct (is_spec 123 t) eqn:B.
      * apply is_spec_iff in B. subst t. destruct D2 as [(E4 & _)|(N2 & G2 & E5)]; [discriminate|].
        match type of H with andthen ?r _ = _ => destruct r as [| | |[cf3 l3]] eqn:X; try discriminate end. cbn [andthen fst snd] in H.
        destruct (list_eq_dec N.eq_dec s main) as [SM|SM].
        { exfalso. apply NM. apply names_grow in X. apply names_grow in H. destruct X as (e1 & X). destruct H as (e2 & H). rewrite X in H. subst s.
          destruct cf' as [|d cf']; [discriminate|]. cbn [map app] in H. injection H as _ H. cbn [tl]. rewrite H, map_app, !in_app_iff. cbn [map In]. tauto. }
        destruct (commands_made s SM (word_plain s G1) f _ _ _ _ _ P2 X) as [P3 (cmds & q & C1 & C2 & C3)]. subst cf3. cbn [app] in H.
        destruct (IH _ _ _ _ _ P3 H NM) as (es & parts & D1 & D3 & ts & D4 & D5).
        exists (Domain (s, cmds) :: es), ((TId s :: TSpec 123 :: concat q ++ [TSpec 125]) :: parts). cbn [cmds_of doms_of flat_map app concat]. rewrite <- app_assoc in D1.
        split; [exact D1|]. split; [constructor; [split; [exact SM|exists q; auto]|exact D3]|]. destruct C3 as [[C3 C4]|C3].
        -- subst l3. apply toks_none_inv in D4. subst ts.
           assert (Z : concat parts = []).
           { destruct D5 as [D5|D5]; [auto|]. destruct D3 as [|e p es parts EN D3]; [discriminate|]. destruct (entry_tokens_nonempty _ _ EN) as (s0 & r & ->). discriminate. }
           rewrite Z. exists (TId s :: TSpec 123 :: concat q). split; [apply (E (TSpec 123 :: concat q)), (E5 (concat q)), C4|]. right. cbn [app]. rewrite app_nil_r. reflexivity.
        -- exists (TId s :: TSpec 123 :: concat q ++ TSpec 125 :: ts). split; [apply (E (TSpec 123 :: _)), (E5 (concat q ++ _)), C3, D4|].
           cbn [app]. rewrite <- !app_assoc. cbn [app]. destruct D5 as [D5|D5]; [left; rewrite D5; reflexivity|right; rewrite <- D5; reflexivity].
      * destruct (items f t l2) as [| | |[its l3]] eqn:X; try discriminate. cbn [andthen fst snd add_command] in H.
        destruct D2 as [(E4 & _)|(N2 & G2 & E5)]; [subst t; destruct f; discriminate|].
        destruct (items_made _ _ _ _ _ P2 G2 X) as [P3 (parts & F & K)]. destruct (command_made l (TId s) l1 s t l2 its l3 parts eq_refl E E5 F K) as (p & C & R).
        destruct (IH _ _ _ _ _ P3 H NM) as (es & ps & D1 & D3 & ts & D4 & D5). exists (Command (s, its) :: es), (p :: ps). cbn [cmds_of doms_of flat_map app concat].
        rewrite <- app_assoc in D1. split; [exact D1|]. split; [constructor; [exact C|exact D3]|]. exists (p ++ ts). split; [apply R; exact D4|].
        rewrite <- app_assoc. destruct D5 as [D5|D5]; [left; rewrite D5; reflexivity|right; rewrite <- D5; reflexivity].
    + destruct (c =? 125); [|discriminate]. rewrite main_is_main in H. discriminate.
Qed.

(** ** Files *)
Lemma tokens_toks : forall l ts, plain l -> tokens_of l ts <-> toks (Some l) ts.
Proof.
  intros l ts P. split.
  - intros (us & S & W). split; [exact P|]. exists us. split; [|exact W]. apply (spells_lexes _ _ _ conf_keywords_ok conf_hooks_ok us l S P (Some l) eq_refl).
  - intros (_ & us & L & W). exists us. split; [|exact W]. apply (lexes_spells _ _ _ conf_hooks_ok (Some l) us L P).
Qed.
Lemma load_read : forall l es, plain l -> written es l \/ unclosed es l -> load (Some l) = Got (contents es).
Proof.
  intros l es P W.
  assert (K : exists ts parts, toks (Some l) ts /\ Forall2 entry_tokens es parts /\ (ts = concat parts \/ ts ++ [TSpec 125] = concat parts)).
  { destruct W as [(ts & T & parts & F & E)|(ts & T & parts & F & E)]; apply (tokens_toks l ts P) in T; exists ts, parts; auto. }
  destruct K as (ts & parts & T & F & E). unfold load. rewrite (entries_read es parts F (Some l) ts T E) by (unfold size; cbn [rest]; lia). reflexivity.
Qed.
Lemma load_made : forall l cf, plain l -> load (Some l) = Got cf -> ~ In main (map fst (tl cf)) -> exists es, cf = contents es /\ (written es l \/ unclosed es l).
Proof.
  intros l cf P H N. unfold load in H. destruct (load_loop _ _ _ _) as [| | |[cf' l']] eqn:X; try discriminate. cbn [andthen fst] in H. injection H as H; subst cf'.
  destruct (entries_made _ _ _ (Some l) _ _ P X N) as (es & parts & D1 & D2 & ts & D3 & D4). exists es. split; [exact D1|]. apply (tokens_toks l ts P) in D3.
  destruct D4 as [D4|D4]; [left|right]; exists ts; (split; [exact D3|]); exists parts; auto.
Qed.
