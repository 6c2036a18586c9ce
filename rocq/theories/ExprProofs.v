Require Import List Arith NArith ZArith Bool Lia.
Require Import ZifyBool ZifyNat ZifyN.
Require Import Verif.Base Verif.LexModel Verif.LexSpec Verif.LexProofs Verif.ExprModel Verif.ExprSpec.
Import ListNotations.
Local Open Scope N_scope.

(** ** The tokens of expressions *)
Lemma special_iff : forall c, special c = true <-> punctuation c.
Proof. intros c; unfold special, punctuation; lia. Qed.
Lemma escape_iff : forall c x, escape c = Some x <-> In (c, x) escapes.
Proof.
  intros c x. split.
  - unfold escape. intros H.
    destruct ((c =? 34) || (c =? 39) || (c =? 92)) eqn:E0.
    { injection H as H; subst x. assert (c = 34 \/ c = 39 \/ c = 92) as [E|[E|E]] by lia; subst c; cbn; tauto. }
    repeat match type of H with (if ?c =? ?k then _ else _) = _ => destruct (N.eqb_spec c k); [injection H as H; subst; cbn; tauto|] end. discriminate.
  - cbn [In escapes]. intros H. repeat (destruct H as [H|H]; [injection H as H1 H2; subst; reflexivity|]). elim H.
Qed.
Lemma quoted_spelled : forall q v s, string_body q v s -> q = 34 \/ q = 39 -> forall r, plain (s ++ q :: r) -> quoted q (s ++ q :: r) = Some (v, r).
Proof.
  intros q v s B Q; induction B as [|c v s N1 N2 B IH|c x v s I B IH]; intros r P.
  - cbn [app quoted]. destruct (plain_head q r P) as [P1 P2]. rewrite P1, P2, N.eqb_refl. reflexivity.
  - cbn [app quoted] in *. destruct (plain_head _ _ P) as [P1 P2]. rewrite P1, P2. cbn [orb].
    replace (c =? q) with false by lia. replace (c =? 92) with false by lia. rewrite IH by apply (Forall_inv_tail P). reflexivity.
  - cbn [app quoted] in *. cbn [ERR EOF]. replace ((92 =? ERR) || (92 =? EOF)) with false by reflexivity.
    replace (92 =? q) with false by lia. replace (92 =? 92) with true by reflexivity.
    rewrite (proj2 (escape_iff c x) I). rewrite IH by apply (Forall_inv_tail (Forall_inv_tail P)). reflexivity.
Qed.
Lemma quoted_inv : forall q n l v r, (length l <= n)%nat -> quoted q l = Some (v, r) -> exists s, string_body q v s /\ l = s ++ q :: r.
Proof.
  intros q n; induction n as [|n IH]; intros l v r L H; (destruct l as [|c l]; [discriminate|]); [cbn in L; lia|].
  cbn [quoted length] in *. destruct ((c =? ERR) || (c =? EOF)); [discriminate|]. destruct (c =? q) eqn:E.
  - injection H as H1 H2; subst. apply N.eqb_eq in E; subst. exists []. split; [constructor|reflexivity].
  - destruct (c =? 92) eqn:E2.
    + destruct l as [|x l]; [discriminate|]. destruct (escape x) as [y|] eqn:X; [|discriminate].
      cbn in H. destruct (quoted q l) as [[v' r']|] eqn:Q; [|discriminate]. cbn in H. injection H as H1 H2; subst.
      cbn [length] in L. destruct (IH l v' r ltac:(lia) Q) as (s & S1 & S2). apply N.eqb_eq in E2; subst. exists (92 :: x :: s).
      split; [|reflexivity]. apply b_escape; [apply escape_iff; exact X|exact S1].
    + cbn in H. destruct (quoted q l) as [[v' r']|] eqn:Q; [|discriminate]. cbn in H. injection H as H1 H2; subst.
      destruct (IH l v' r ltac:(lia) Q) as (s & S1 & S2). subst l. exists (c :: s). split; [|reflexivity]. apply b_char; auto; lia.
Qed.
Lemma expr_keywords_ok : keywords_ok keywords.
Proof.
  let k := eval vm_compute in keywords in change keywords with k.
  split.
  - repeat (constructor; [split; [|discriminate]|]); try constructor; (eexists; eexists; split; [reflexivity|]; split; [unfold letter; lia|repeat (constructor; [unfold letter; lia|]); constructor]).
  - repeat constructor; cbn [In map]; intros H; repeat (destruct H as [H|H]; [discriminate|]); exact H.
Qed.
Lemma expr_hooks_ok : hooks_ok expr_hooks expr_other.
Proof.
  repeat split.
  - intros E; subst t. inversion H.
  - destruct H as [c P N1 N2|q v s Q B].
    + exists c, []. split; [reflexivity|]. destruct (N.eq_dec c 95) as [E|E]; [left; subst; auto|]. right.
      split; [unfold first_other, letter, dec_digit, blank; unfold punctuation in P; lia|]. exists (Some r). split; [|reflexivity].
      unfold spec_char, expr_hooks. rewrite (proj2 (special_iff c) P). replace ((c =? 34) || (c =? 39)) with false by lia. reflexivity.
    + exists q, (s ++ [q]). split; [reflexivity|]. right. split; [unfold first_other, letter, dec_digit, blank; lia|]. exists (Some r). split; [|reflexivity].
      unfold spec_char, expr_hooks. replace (special q) with true by (unfold special; lia). replace ((q =? 34) || (q =? 39)) with true by lia.
      unfold string_hook. rewrite <- app_assoc. cbn [app]. rewrite (quoted_spelled q v s B Q r); [reflexivity|].
      cbn [app] in H1. apply Forall_inv_tail in H1. rewrite <- app_assoc in H1. exact H1.
  - intros E; subst t. unfold spec_char, expr_hooks, string_hook in H1. destruct (special c); [|discriminate].
    destruct ((c =? 34) || (c =? 39)); [|discriminate]. destruct (quoted c l) as [[v r]|]; discriminate.
  - unfold spec_char, expr_hooks in H1. destruct (special c) eqn:S; [|discriminate]. apply special_iff in S.
    destruct ((c =? 34) || (c =? 39)) eqn:Q.
    + unfold string_hook in H1. destruct (quoted c l) as [[v r]|] eqn:E; [|discriminate]. injection H1 as E1 E2; subst t l'.
      destruct (quoted_inv c (length l) l v r (le_n _) E) as (s & S1 & S2). exists (s ++ [c]), r. rewrite <- app_assoc. repeat split; auto; [|destruct r; exact I].
      apply o_str; [lia|exact S1].
    + injection H1 as E1 E2; subst t l'. exists [], l. repeat split; auto.
      * constructor; auto; lia.
      * destruct l; [exact I|]. cbn [ends]. destruct H as (F1 & F2 & F3). intros E. elim F1. unfold letter; auto.
  - constructor; [unfold punctuation; lia|discriminate|discriminate].
Qed.

(** ** Reading tokens ahead *)
(** The input is left only at the end of the text, and not before that is read if the text ends with a blank. *)
Inductive reads (bl : bool) : lx -> list token -> Prop :=
| r_eof : forall l, expr_token l = LTok TEof None -> reads bl l [TEof]
| r_tok : forall l t l' ts, expr_token l = LTok t l' -> t <> TEof -> (l' = None -> bl = false /\ ts = [TEof]) -> reads bl l' ts -> reads bl l (t :: ts).
Definition blank_end (l : LexModel.bytes) : Prop := exists a c, l = a ++ [c] /\ blank c.
Lemma spells_reads : forall bl ts l, spells keywords expr_other ts l -> plain l -> (bl = true -> blank_end l) -> forall x, rest x = l -> reads bl x (ts ++ [TEof]).
Proof.
  intros bl ts l S; induction S as [b B|b t s ts r B SP EN S IH]; intros P BL x X.
  - cbn [app]. apply r_eof. unfold expr_token. rewrite lex_left, X. rewrite <- (app_nil_r b). rewrite token_blanks by exact B. reflexivity.
  - destruct (token_spelled keywords expr_hooks expr_other expr_keywords_ok expr_hooks_ok b t s r B SP EN P) as (T & l' & L1 & L2).
    assert (R : bl = true -> blank_end r).
    { intros E. destruct (BL E) as (a & c & A1 & A2). destruct (@exists_last _ r) as (r0 & d & D).
      - intros N. rewrite N, app_nil_r in A1.
        assert (Q : exists s0 d, s = s0 ++ [d] /\ ~ blank d).
        { destruct SP as [s W _|i s NE|t s NU|t s OT].
          - destruct W as [(c0 & r0 & -> & LE & F) _]. destruct (@exists_last _ (c0 :: r0) ltac:(discriminate)) as (s0 & d & D). exists s0, d. split; [exact D|].
            assert (Forall (fun c => letter c \/ dec_digit c) (c0 :: r0)) as G by (constructor; auto). rewrite D in G. apply Forall_app in G. destruct G as [_ G].
            pose proof (Forall_inv G) as G'. unfold blank, letter, dec_digit in *. lia.
          - pose proof (kw_word keywords expr_keywords_ok i s NE) as [(c0 & r0 & -> & LE & F) _]. destruct (@exists_last _ (c0 :: r0) ltac:(discriminate)) as (s0 & d & D). exists s0, d. split; [exact D|].
            assert (Forall (fun c => letter c \/ dec_digit c) (c0 :: r0)) as G by (constructor; auto). rewrite D in G. apply Forall_app in G. destruct G as [_ G].
            pose proof (Forall_inv G) as G'. unfold blank, letter, dec_digit in *. lia.
          - destruct (numeral_chars t s NU) as [NC (c0 & r0 & -> & _)]. destruct (@exists_last _ (c0 :: r0) ltac:(discriminate)) as (s0 & d & D). exists s0, d. split; [exact D|].
            rewrite D in NC. apply Forall_app in NC. destruct NC as [_ G]. pose proof (Forall_inv G) as G'. unfold blank, num_char, isdigit, isalpha in *. lia.
          - destruct OT as [c0 PU _ _|q v s Q _].
            + exists [], c0. split; [reflexivity|]. unfold punctuation, blank in *. lia.
            + exists (q :: s), q. split; [reflexivity|]. unfold blank. lia. }
        destruct Q as (s0 & d & Q1 & Q2). subst s. rewrite app_assoc in A1. apply app_inj_tail in A1. destruct A1 as [_ A1]. subst d. elim Q2. exact A2.
      - exists r0, d. split; [exact D|]. rewrite D, !app_assoc in A1. apply app_inj_tail in A1. destruct A1 as [_ A1]. subst d. exact A2. }
    cbn [app]. apply r_tok with (l' := l'); auto.
    + unfold expr_token. rewrite lex_left, X. exact L1.
    + intros N. subst l'. cbn [rest] in L2. subst r. split.
      * destruct bl; [|reflexivity]. destruct (R eq_refl) as (a & c & A1 & _). destruct a; discriminate.
      * inversion S as [b0 B0 E1 E2|b0 t0 s0 ts0 r0 B0 SP0 EN0 S0 E1 E2]; [reflexivity|]. exfalso.
        assert (s0 = []) by (destruct b0; [destruct s0; [reflexivity|discriminate]|discriminate]). subst s0.
        inversion SP0 as [s1 W1|i1 s1 N1|t1 s1 N1|t1 s1 O1]; subst.
        -- destruct W1 as [(c1 & r1 & W1 & _) _]. discriminate.
        -- destruct (kw_word keywords expr_keywords_ok _ _ N1) as [(c1 & r1 & W1 & _) _]. discriminate.
        -- destruct (numeral_chars _ _ N1) as [_ (c1 & r1 & W1 & _)]. discriminate.
        -- inversion O1.
    + apply IH; auto. apply Forall_app in P. destruct P as [_ P]. apply Forall_app in P. apply P.
Qed.

Section Run.
Context {W : Type} (cb : callback W) (bl : bool).
Local Notation reads := (reads bl).
Definition safe (l : lx) (ts : list token) : Prop := l = None -> bl = false /\ ts = [TEof].
Definition pend (l : lx) (n : option token) (ts : list token) : Prop :=
  match n with
  | None => reads l ts
  | Some t => exists ts', ts = t :: ts' /\ t <> TEof /\ reads l ts' /\ safe l ts'
  end.
Definition holds (s : st W) (ts : list token) (w : W) : Prop := at_eof s = false /\ world s = w /\ pend (input s) (ahead s) ts.

Lemma reads_next3 : forall b t ts, reads b (t :: ts) -> t <> TEof -> exists b', expr_token b = LTok t b' /\ reads b' ts /\ safe b' ts.
Proof. intros b t ts R N. inversion R; subst; [elim N; reflexivity|]. eauto. Qed.
Lemma reads_next : forall b t ts, reads b (t :: ts) -> t <> TEof -> exists b', expr_token b = LTok t b' /\ reads b' ts.
Proof. intros b t ts R N. destruct (reads_next3 b t ts R N) as (b' & B1 & B2 & _). eauto. Qed.
Lemma reads_end : forall b ts, reads b (TEof :: ts) -> expr_token b = LTok TEof None /\ ts = [].
Proof. intros b ts R. inversion R; subst; [auto|]. congruence. Qed.
Lemma take_next3 : forall s t ts w, holds s (t :: ts) w -> t <> TEof ->
  exists b, take s = Some (t, mkSt b None false w) /\ reads b ts /\ safe b ts.
Proof.
  intros [l n e w0] t ts w (E & V & P) T. cbn in *. subst e w0. unfold take. cbn [ahead input at_eof world]. destruct n as [u|].
  - destruct P as (ts' & P1 & P2 & P3 & P4). injection P1 as P1 P5. subst u ts'. exists l. auto.
  - cbn in P. destruct (reads_next3 l t ts P T) as (b' & B1 & B2 & B3). rewrite B1. exists b'. auto.
Qed.
Lemma take_next : forall s t ts w, holds s (t :: ts) w -> t <> TEof -> exists b, take s = Some (t, mkSt b None false w) /\ reads b ts.
Proof. intros s t ts w H T. destruct (take_next3 s t ts w H T) as (b & B1 & B2 & _). eauto. Qed.
Lemma take_end : forall s ts w, holds s (TEof :: ts) w -> ts = [] /\ exists l, take s = Some (TEof, mkSt l None false w).
Proof.
  intros [l n e w0] ts w (E & V & P). cbn in *. subst e w0. unfold take. cbn [ahead input at_eof world]. destruct n as [u|].
  - destruct P as (ts' & P1 & P2 & P3 & P4). congruence.
  - cbn in P. destruct (reads_end l ts P) as [B1 B2]. rewrite B1. eauto.
Qed.
Lemma holds_read : forall b ts w, reads b ts -> holds (mkSt b None false w) ts w.
Proof. intros b ts w R. repeat split. exact R. Qed.
Lemma holds_push : forall b t ts w, reads b ts -> safe b ts -> t <> TEof -> holds (push t (mkSt b None false w)) (t :: ts) w.
Proof. intros b t ts w R S T. repeat split. cbn. eauto 6. Qed.

(** What an expression may be followed by. *)
Definition follow (k : token) : Prop := k <> LPAR /\ k <> COLON.
(** After an expression the comma behind it may be gone. *)
Definition after (s : st W) (k : token) (ts : list token) (w : W) : Prop := holds s (k :: ts) w \/ (k = COMMA /\ holds s ts w).
Lemma after_holds : forall s k ts w, after s k ts w -> k <> COMMA -> holds s (k :: ts) w.
Proof. intros s k ts w [H|[H _]] N; [exact H|elim N; exact H]. Qed.

Definition gives (f : nat -> outcome W) (o : outcome W) : Prop := exists n, forall fuel, (n <= fuel)%nat -> f fuel = o.
Definition parses (f : nat -> outcome W) (r : option value) (k : token) (ts : list token) (w : W) : Prop :=
  match r with
  | Some v => exists s, gives f (Ret ROk v s) /\ after s k ts w
  | None => exists s, gives f (Ret RErr VNull s) /\ world s = w
  end.
(** As [parses], but nothing behind is touched. *)
Definition parsed (f : nat -> outcome W) (r : option value) (ts : list token) (w : W) : Prop :=
  match r with
  | Some v => exists b, gives f (Ret ROk v (mkSt b None false w)) /\ reads b ts /\ safe b ts
  | None => exists s, gives f (Ret RErr VNull s) /\ world s = w
  end.

(** ** Skipping *)
Fixpoint walk (up down mid : nat) (c : Z) (ts : list token) : option Z :=
  match ts with
  | [] => Some c
  | TEof :: _ => None
  | TKw k :: r =>
      if Nat.eqb k up then walk up down mid (c + 1) r
      else if Nat.eqb k down then if Z.eqb c 0 then None else walk up down mid (c - 1) r
      else if Nat.eqb k mid then if Z.eqb c 0 then None else walk up down mid c r
      else walk up down mid c r
  | _ :: r => walk up down mid c r
  end.
Scheme expr_mut := Induction for expr Sort Prop with exprs_mut := Induction for exprs Sort Prop.
Combined Scheme expr_exprs_ind from expr_mut, exprs_mut.
Definition skippable (up down mid : nat) : Prop := (up = K_if /\ down = K_fi /\ (mid = K_else \/ mid = K_if)) \/ (up = K_loop /\ down = K_end /\ mid = K_loop).
Lemma walk_path : forall up down mid ns c ts, walk up down mid c (path_tokens ns ++ ts) = walk up down mid c ts.
Proof. intros up down mid ns; induction ns as [|n ns IH]; intros c ts; [reflexivity|]. cbn [path_tokens flat_map app walk COLON] in *. apply IH. Qed.
Lemma walk_skips : forall up down mid, skippable up down mid ->
  (forall e c ts, (0 <= c)%Z -> walk up down mid c (tokens e ++ ts) = walk up down mid c ts) /\
  (forall es c ts, (0 <= c)%Z -> walk up down mid c (seq_tokens es ++ ts) = walk up down mid c ts /\ walk up down mid c (arg_tokens es ++ ts) = walk up down mid c ts).
Proof.
  intros up down mid S.
  assert (A : forall c, (0 <= c)%Z -> (c + 1 - 1 = c /\ 0 <= c + 1 /\ (c + 1 =? 0) = false)%Z) by (intros c C; lia).
  apply expr_exprs_ind.
  - intros l c ts C. destruct S as [(S1 & S2 & [S3|S3])|(S1 & S2 & S3)]; subst; destruct l; reflexivity.
  - intros ns n c ts C. cbn [tokens]. rewrite <- app_assoc, walk_path. reflexivity.
  - intros ns n args IH c ts C. cbn [tokens]. rewrite <- app_assoc, walk_path. cbn [app walk LPAR]. rewrite <- app_assoc. rewrite (proj2 (IH c _ C)). reflexivity.
  - intros x IHx a IHa b IHb c ts C. assert (IHa1 : forall d us, (0 <= d)%Z -> walk up down mid d (seq_tokens a ++ us) = walk up down mid d us) by (intros d us D; apply IHa; exact D). assert (IHb1 : forall d us, (0 <= d)%Z -> walk up down mid d (seq_tokens b ++ us) = walk up down mid d us) by (intros d us D; apply IHb; exact D).
    cbn [tokens app]. rewrite <- !app_assoc. cbn [app]. rewrite <- ?app_assoc. cbn [app]. rewrite <- ?app_assoc. cbn [app].
    destruct (A c C) as (A1 & A2 & A3).
    destruct S as [(S1 & S2 & [S3|S3])|(S1 & S2 & S3)]; subst; cbn [walk Nat.eqb K_if K_then K_else K_fi K_loop K_end];
      rewrite IHx by lia; cbn [walk Nat.eqb K_if K_then K_else K_fi K_loop K_end]; rewrite IHa1 by lia;
      cbn [walk Nat.eqb K_if K_then K_else K_fi K_loop K_end]; rewrite ?A3; rewrite IHb1 by lia; cbn [walk Nat.eqb K_if K_then K_else K_fi K_loop K_end]; rewrite ?A3, ?A1; reflexivity.
  - intros x IHx a IHa c ts C. assert (IHa1 : forall d us, (0 <= d)%Z -> walk up down mid d (seq_tokens a ++ us) = walk up down mid d us) by (intros d us D; apply IHa; exact D).
    cbn [tokens app]. rewrite <- !app_assoc. cbn [app]. rewrite <- ?app_assoc. cbn [app].
    destruct (A c C) as (A1 & A2 & A3).
    destruct S as [(S1 & S2 & [S3|S3])|(S1 & S2 & S3)]; subst; cbn [walk Nat.eqb K_if K_then K_else K_fi K_loop K_end];
      rewrite IHx by lia; cbn [walk Nat.eqb K_if K_then K_else K_fi K_loop K_end]; rewrite IHa1 by lia;
      cbn [walk Nat.eqb K_if K_then K_else K_fi K_loop K_end]; rewrite ?A3, ?A1; reflexivity.
  - intros x IHx a IHa c ts C. assert (IHa1 : forall d us, (0 <= d)%Z -> walk up down mid d (seq_tokens a ++ us) = walk up down mid d us) by (intros d us D; apply IHa; exact D).
    cbn [tokens app]. rewrite <- !app_assoc. cbn [app]. rewrite <- ?app_assoc. cbn [app].
    destruct (A c C) as (A1 & A2 & A3).
    destruct S as [(S1 & S2 & [S3|S3])|(S1 & S2 & S3)]; subst; cbn [walk Nat.eqb K_if K_then K_else K_fi K_loop K_end K_do];
      rewrite IHx by lia; cbn [walk Nat.eqb K_if K_then K_else K_fi K_loop K_end K_do]; rewrite IHa1 by lia;
      cbn [walk Nat.eqb K_if K_then K_else K_fi K_loop K_end]; rewrite ?A3, ?A1; reflexivity.
  - intros c ts C. split; reflexivity.
  - intros e IHe es IHes c ts C. split.
    + cbn [seq_tokens]. rewrite <- app_assoc, IHe by exact C. apply IHes. exact C.
    + destruct es as [|e' es'].
      * cbn [arg_tokens]. apply IHe. exact C.
      * change (arg_tokens (ECons e (ECons e' es'))) with (tokens e ++ COMMA :: arg_tokens (ECons e' es')).
        rewrite <- app_assoc, IHe by exact C. cbn [app walk COMMA]. apply IHes. exact C.
Qed.
Lemma seq_no_eof : (forall e, ~ In TEof (tokens e)) /\ (forall es, ~ In TEof (seq_tokens es) /\ ~ In TEof (arg_tokens es)).
Proof.
  assert (N : forall ns, ~ In TEof (path_tokens ns)) by (intros ns; induction ns as [|n ns IH]; cbn; [tauto|]; intros [H|[H|H]]; try discriminate; auto).
  assert (T : forall k, TKw k <> TEof) by discriminate.
  apply expr_exprs_ind.
  - intros [] [H|[]]; discriminate.
  - intros ns n. cbn [tokens]. rewrite in_app_iff. intros [H|[H|[]]]; [elim (N ns H)|discriminate].
  - intros ns n args [_ IH]. cbn [tokens]. rewrite !in_app_iff. cbn [In]. intros [H|[[H|[H|[]]]|[H|[H|[]]]]]; try discriminate; [elim (N ns H)|auto].
  - intros x IHx a [IHa _] b [IHb _]. cbn [tokens]. rewrite !in_app_iff. cbn [In]. intuition discriminate.
  - intros x IHx a [IHa _]. cbn [tokens]. rewrite !in_app_iff. cbn [In]. intuition discriminate.
  - intros x IHx a [IHa _]. cbn [tokens]. rewrite !in_app_iff. cbn [In]. intuition discriminate.
  - split; intros [].
  - intros e IHe es [IH1 IH2]. split.
    + cbn [seq_tokens]. rewrite in_app_iff. tauto.
    + destruct es as [|e' es']; [exact IHe|]. change (arg_tokens (ECons e (ECons e' es'))) with (tokens e ++ COMMA :: arg_tokens (ECons e' es')).
      rewrite in_app_iff. cbn [In]. intuition discriminate.
Qed.
Lemma skip_step : forall up down mid (f : nat -> Z -> st W -> outcome W),
  (forall fuel c s t ts w, holds s (t :: ts) w -> forall c', walk up down mid c [t] = Some c' -> forall b, take s = Some (t, mkSt b None false w) -> f (S fuel) c s = f fuel c' (mkSt b None false w)) ->
  forall pre c c' s ts w, walk up down mid c pre = Some c' -> holds s (pre ++ ts) w ->
    exists s', holds s' ts w /\ forall fuel, f (length pre + fuel)%nat c s = f fuel c' s'.
Proof.
  intros up down mid f F pre; induction pre as [|t pre IH]; intros c c' s ts w WK H.
  - cbn in WK. injection WK as WK; subst. exists s. auto.
  - assert (T : t <> TEof) by (intros E; subst; discriminate).
    destruct (take_next s t (pre ++ ts) w H T) as (b & B1 & B2).
    assert (X : exists d, walk up down mid c [t] = Some d /\ walk up down mid d pre = Some c').
    { destruct t; cbn [walk] in WK |- *; try (exists c; split; [reflexivity|exact WK]); [elim T; reflexivity|].
      destruct (Nat.eqb n up); [eauto|]. destruct (Nat.eqb n down); [destruct (Z.eqb c 0); [discriminate|eauto]|].
      destruct (Nat.eqb n mid); [destruct (Z.eqb c 0); [discriminate|eauto]|eauto]. }
    destruct X as (d & D1 & D2). destruct (IH d c' (mkSt b None false w) ts w D2 (holds_read b _ w B2)) as (s' & S1 & S2).
    exists s'. split; [exact S1|]. intros fuel. cbn [length Nat.add]. rewrite (F _ c s t (pre ++ ts) w H d D1 b B1). apply S2.
Qed.
Lemma nat_cases : forall n, n = 0%nat \/ n = 1%nat \/ n = 2%nat \/ n = 3%nat \/ n = 4%nat \/ n = 5%nat \/ n = 6%nat \/ n = 7%nat \/ n = 8%nat \/ n = 9%nat \/ exists m, n = (10 + m)%nat.
Proof. intros n. do 10 (destruct n as [|n]; [tauto|]). do 10 right. exists n. reflexivity. Qed.
Ltac kw_cases n := let m := fresh in destruct (nat_cases n) as [->|[->|[->|[->|[->|[->|[->|[->|[->|[->|[m ->]]]]]]]]]]].
Lemma skip_fi_step : forall fuel c s t ts w, holds s (t :: ts) w -> forall c', walk K_if K_fi K_if c [t] = Some c' -> forall b, take s = Some (t, mkSt b None false w) ->
  skip_fi (S fuel) c s = skip_fi fuel c' (mkSt b None false w).
Proof.
  intros fuel c s t ts w H c' WK b T. cbn [skip_fi]. rewrite T. destruct t as [| | | | | |n| |]; cbn [walk] in WK; try (injection WK as <-; reflexivity); [discriminate|].
  kw_cases n; cbn in WK |- *; try (injection WK as <-; reflexivity).
  - destruct (Z.eqb c 0); [discriminate|injection WK as <-; reflexivity].
Qed.
Lemma skip_else_step : forall fuel c s t ts w, holds s (t :: ts) w -> forall c', walk K_if K_fi K_else c [t] = Some c' -> forall b, take s = Some (t, mkSt b None false w) ->
  skip_else (S fuel) c s = skip_else fuel c' (mkSt b None false w).
Proof.
  intros fuel c s t ts w H c' WK b T. cbn [skip_else]. rewrite T. destruct t as [| | | | | |n| |]; cbn [walk] in WK; try (injection WK as <-; reflexivity); [discriminate|].
  kw_cases n; cbn in WK |- *; try (injection WK as <-; reflexivity).
  - destruct (Z.eqb c 0); [discriminate|injection WK as <-; reflexivity].
  - destruct (Z.eqb c 0); [discriminate|injection WK as <-; reflexivity].
Qed.
Lemma skip_end_step : forall fuel c s t ts w, holds s (t :: ts) w -> forall c', walk K_loop K_end K_loop c [t] = Some c' -> forall b, take s = Some (t, mkSt b None false w) ->
  skip_end (S fuel) c s = skip_end fuel c' (mkSt b None false w).
Proof.
  intros fuel c s t ts w H c' WK b T. cbn [skip_end]. rewrite T. destruct t as [| | | | | |n| |]; cbn [walk] in WK; try (injection WK as <-; reflexivity); [discriminate|].
  kw_cases n; cbn in WK |- *; try (injection WK as <-; reflexivity).
  - destruct (Z.eqb c 0); [discriminate|injection WK as <-; reflexivity].
Qed.
Lemma walk_seq : forall up down mid es, skippable up down mid -> walk up down mid 0 (seq_tokens es) = Some 0%Z.
Proof. intros up down mid es S. rewrite <- (app_nil_r (seq_tokens es)). rewrite (proj1 (proj2 (walk_skips up down mid S) es 0%Z [] ltac:(lia))). reflexivity. Qed.
Lemma skip_fi_seq : forall es s ts w, holds s (seq_tokens es ++ TKw K_fi :: ts) w -> exists b, (reads b ts /\ safe b ts) /\ gives (fun f => skip_fi f 0 s) (Ret ROk VNull (mkSt b None false w)).
Proof.
  intros es s ts w H.
  destruct (skip_step K_if K_fi K_if skip_fi skip_fi_step (seq_tokens es) 0 0 s _ w (walk_seq _ _ _ es ltac:(left; auto)) H) as (s1 & H1 & E).
  destruct (take_next3 s1 _ ts w H1 ltac:(discriminate)) as (b & T & R & SF). exists b. split; [auto|].
  exists (length (seq_tokens es) + 1)%nat. intros fuel L. replace fuel with (length (seq_tokens es) + S (fuel - length (seq_tokens es) - 1))%nat by lia.
  rewrite E. cbn [skip_fi]. rewrite T. reflexivity.
Qed.
Lemma skip_else_seq : forall es s ts w, holds s (seq_tokens es ++ TKw K_else :: ts) w -> exists b, (reads b ts /\ safe b ts) /\ gives (fun f => skip_else f 0 s) (Ret ROk VNull (mkSt b None false w)).
Proof.
  intros es s ts w H.
  destruct (skip_step K_if K_fi K_else skip_else skip_else_step (seq_tokens es) 0 0 s _ w (walk_seq K_if K_fi K_else es ltac:(left; auto)) H) as (s1 & H1 & E).
  destruct (take_next3 s1 _ ts w H1 ltac:(discriminate)) as (b & T & R & SF). exists b. split; [auto|].
  exists (length (seq_tokens es) + 1)%nat. intros fuel L. replace fuel with (length (seq_tokens es) + S (fuel - length (seq_tokens es) - 1))%nat by lia.
  rewrite E. cbn [skip_else]. rewrite T. reflexivity.
Qed.
Lemma skip_end_seq : forall es s ts w, holds s (seq_tokens es ++ TKw K_end :: ts) w -> exists b, (reads b ts /\ safe b ts) /\ gives (fun f => skip_end f 0 s) (Ret ROk VNull (mkSt b None false w)).
Proof.
  intros es s ts w H.
  destruct (skip_step K_loop K_end K_loop skip_end skip_end_step (seq_tokens es) 0 0 s _ w (walk_seq _ _ _ es ltac:(right; auto)) H) as (s1 & H1 & E).
  destruct (take_next3 s1 _ ts w H1 ltac:(discriminate)) as (b & T & R & SF). exists b. split; [auto|].
  exists (length (seq_tokens es) + 1)%nat. intros fuel L. replace fuel with (length (seq_tokens es) + S (fuel - length (seq_tokens es) - 1))%nat by lia.
  rewrite E. cbn [skip_end]. rewrite T. reflexivity.
Qed.

(** ** Values *)
Lemma truth_iff : forall v, truth v = true <-> truthy v.
Proof.
  intros [|b|z|n d|s|p]; cbn [truth truthy].
  - split; [discriminate|tauto].
  - tauto.
  - rewrite negb_true_iff, Z.eqb_neq. tauto.
  - rewrite negb_true_iff, N.eqb_neq. tauto.
  - destruct s; cbn; split; congruence.
  - rewrite negb_true_iff, N.eqb_neq. tauto.
Qed.
Lemma truth_false : forall v, ~ truthy v -> truth v = false.
Proof. intros v H. apply not_true_is_false. rewrite truth_iff. exact H. Qed.
Lemma fold_positional : forall base s a, fold_left (fun a c => a * base + digit c) s a = a * base ^ N.of_nat (length s) + positional base s.
Proof.
  intros base s; induction s as [|c s IH]; intros a; cbn [fold_left positional length].
  - rewrite N.pow_0_r. lia.
  - rewrite IH. change (digit_of c) with (digit c). rewrite Nat2N.inj_succ, N.pow_succ_r'. lia.
Qed.
Lemma numeral_positional : forall base s, numeral base s = positional base s.
Proof. intros base s. unfold numeral. rewrite fold_positional. lia. Qed.
Lemma cut_short : forall s, N.of_nat (length s) <= 1023 -> cut s = s.
Proof. intros s H. unfold cut. apply firstn_all2. lia. Qed.
Lemma s64_unique : forall n z, n < 2 ^ 64 -> (- 2 ^ 63 <= z < 2 ^ 63)%Z -> (z mod 2 ^ 64 = Z.of_N n)%Z -> s64 n = z.
Proof.
  intros n z N R M. unfold s64.
  assert (E : (z = Z.of_N n \/ z = Z.of_N n - 2 ^ 64)%Z).
  { pose proof (Z.div_mod z (2 ^ 64) ltac:(lia)) as D. rewrite M in D. assert (Z.of_N n < 2 ^ 64)%Z by lia. assert (0 <= Z.of_N n)%Z by lia.
    assert (z / 2 ^ 64 = 0 \/ z / 2 ^ 64 = -1)%Z as [Q|Q] by (clear - D R H H0; lia); rewrite Q in D; [left|right]; lia. }
  destruct (n <? 2 ^ 63) eqn:L; destruct E as [E|E]; lia.
Qed.
Lemma split_dot_app : forall a b, Forall dec_digit a -> split_dot (a ++ 46 :: b) = (a, b).
Proof.
  intros a b F; induction F as [|c a C F IH]; [reflexivity|]. cbn [app split_dot]. unfold dec_digit in C. replace (c =? 46) with false by lia. rewrite IH. reflexivity.
Qed.
Lemma val_init_lit : forall l v, lit_value l v -> val_init (lit_token l) = Made v.
Proof.
  intros l v H; destruct H; cbn [lit_token]; try reflexivity; unfold val_init.
  - rewrite cut_short by assumption. rewrite numeral_positional. replace (positional 10 s <? 2 ^ 63) with true by lia. reflexivity.
  - rewrite cut_short by assumption. rewrite numeral_positional. replace (positional 8 s <? 2 ^ 64) with true by lia. rewrite (s64_unique _ z) by assumption. reflexivity.
  - rewrite cut_short by (cbn [length]; lia). cbn [skipn]. rewrite numeral_positional. replace (positional 16 s <? 2 ^ 64) with true by lia. rewrite (s64_unique _ z) by assumption. reflexivity.
  - rewrite cut_short by (rewrite app_length; cbn [length]; lia). rewrite split_dot_app by assumption. rewrite numeral_positional. reflexivity.
Qed.

(** ** Evaluation *)
Definition starter (t : token) : Prop :=
  match t with TKw k => k = K_true \/ k = K_false \/ k = K_null \/ k = K_if \/ k = K_loop | TId _ | TOct _ | TDec _ | THex _ | TReal _ | TTag 0 _ => True | _ => False end.
Lemma first_token : forall e, exists t r, tokens e = t :: r /\ starter t.
Proof.
  intros [l|ns n|ns n args|c a b|c a|c b].
  - destruct l; eexists; eexists; (split; [reflexivity|]); cbn; tauto.
  - destruct ns as [|m ns]; eexists; eexists; (split; [reflexivity|]); exact I.
  - destruct ns as [|m ns]; eexists; eexists; (split; [reflexivity|]); exact I.
  - eexists; eexists; (split; [reflexivity|]); cbn; tauto.
  - eexists; eexists; (split; [reflexivity|]); cbn; tauto.
  - eexists; eexists; (split; [reflexivity|]); cbn; tauto.
Qed.
Lemma starter_ok : forall t, starter t -> t <> TEof /\ follow t /\ t <> COMMA.
Proof. intros t H. unfold follow. destruct t; cbn in H; try tauto; repeat split; discriminate. Qed.
Definition closer (k : token) : Prop := k = TKw K_else \/ k = TKw K_fi \/ k = TKw K_end \/ k = TEof.
Lemma seq_head : forall es k ts, closer k -> exists k' ts', seq_tokens es ++ k :: ts = k' :: ts' /\ follow k' /\ k' <> COMMA /\ (k <> TEof -> k' <> TEof).
Proof.
  intros es k ts C. destruct es as [|e es].
  - exists k, ts. split; [reflexivity|]. unfold follow. destruct C as [C|[C|[C|C]]]; subst; repeat split; try discriminate; auto.
  - destruct (first_token e) as (t & r & E & S). cbn [seq_tokens]. rewrite E. cbn [app]. eexists; eexists. split; [reflexivity|].
    destruct (starter_ok t S) as (C0 & A & B). auto.
Qed.
Lemma parse_path : forall ns acc s ts w, holds s (path_tokens ns ++ ts) w ->
  exists s', holds s' ts w /\ forall fuel, parse cb (length ns + fuel) acc s = parse cb fuel (match ns, acc with [], _ => acc | n :: ns, None => Some (colons n ns) | n :: ns, Some a => Some (a ++ [58] ++ colons n ns) end) s'.
Proof.
  intros ns; induction ns as [|n ns IH]; intros acc s ts w H.
  - exists s. split; [exact H|]. reflexivity.
  - cbn [path_tokens flat_map app] in H. destruct (take_next s _ _ w H ltac:(discriminate)) as (b & T & R).
    destruct (reads_next b COLON _ R ltac:(discriminate)) as (b' & B1 & B2).
    destruct (IH (Some (join acc n)) (mkSt b' None false w) ts w (holds_read b' _ w B2)) as (s' & S1 & S2).
    exists s'. split; [exact S1|]. intros fuel. cbn [length Nat.add]. cbn [parse]. rewrite T. cbn [input at_eof world]. rewrite B1.
    cbn [is_spec COLON N.eqb Pos.eqb]. rewrite S2. destruct ns as [|m ns].
    + destruct acc; reflexivity.
    + destruct acc as [a|]; cbn [join colons]; rewrite <- ?app_assoc; reflexivity.
Qed.
Lemma gives_path : forall ns s s' o,
  (forall fuel, parse cb (length ns + fuel) None s = parse cb fuel (path ns) s') -> gives (fun f => parse cb f (path ns) s') o -> gives (fun f => parse cb f None s) o.
Proof.
  intros ns s s' o E [n G]. exists (length ns + n)%nat. intros fuel L. replace fuel with (length ns + (fuel - length ns))%nat by lia. rewrite E. apply G. lia.
Qed.
Lemma path_start : forall ns s ts w, holds s (path_tokens ns ++ ts) w -> exists s', holds s' ts w /\ forall fuel, parse cb (length ns + fuel) None s = parse cb fuel (path ns) s'.
Proof. intros ns s ts w H. destruct (parse_path ns None s ts w H) as (s' & S1 & S2). exists s'. split; [exact S1|]. intros fuel. rewrite S2. destruct ns; reflexivity. Qed.

Definition finish (r : option value * W) (s : st W) : outcome W :=
  match fst r with None => Ret RErr VNull (mkSt (input s) (ahead s) (at_eof s) (snd r)) | Some v => Ret ROk v (mkSt (input s) (ahead s) (at_eof s) (snd r)) end.
Definition P_eval (w : W) (e : expr) (r : option value) (w' : W) : Prop :=
  forall s k ts, holds s (tokens e ++ k :: ts) w -> follow k -> bl = true \/ k <> TEof \/ is_loop e = false -> parses (fun f => parse cb f None s) r k ts w'.
Definition P_args (w : W) (es : exprs) (r : option (list value)) (w' : W) : Prop :=
  forall s acc ns n ts, holds s (arg_tokens es ++ RPAR :: ts) w \/ holds s (COMMA :: arg_tokens es ++ RPAR :: ts) w ->
    match r with
    | Some vs => exists s', holds s' ts w' /\ gives (fun f => parse_args cb f ns n acc s) (finish (cb w' ns n (Some (acc ++ vs))) s')
    | None => exists s', gives (fun f => parse_args cb f ns n acc s) (Ret RErr VNull s') /\ world s' = w'
    end.
Definition P_seq (w : W) (v : value) (es : exprs) (r : option value) (w' : W) : Prop :=
  (forall s stop ts, stop = K_fi \/ stop = K_end -> holds s (seq_tokens es ++ TKw stop :: ts) w -> parsed (fun f => body cb f stop v s) r ts w') /\
  (forall s k ts ts2, holds s (seq_tokens es ++ k :: ts) w -> (k = TKw K_fi /\ ts2 = ts) \/ (k = TKw K_else /\ exists b, ts = seq_tokens b ++ TKw K_fi :: ts2) ->
     parsed (fun f => then_body cb f v s) r ts2 w') /\
  (forall s ret, holds s (seq_tokens es ++ [TEof]) w -> bl = true \/ ends_with_loop es = false -> v = match ret with None => VNull | Some v => v end ->
     exists n, forall fuel, (n <= fuel)%nat -> run_loop cb fuel ret s = Result r w').
Definition P_loop (w : W) (v : value) (c : expr) (b : exprs) (r : option value) (w' : W) : Prop :=
  forall off ts, reads off (tokens c ++ TKw K_do :: seq_tokens b ++ TKw K_end :: ts) -> bl = true \/ ts <> [TEof] ->
    parsed (fun f => parse_loop cb f off v (mkSt off None false w)) r ts w'.

Scheme eval_min := Minimality for eval Sort Prop with args_min := Minimality for eval_args Sort Prop
  with seq_min := Minimality for eval_seq Sort Prop with loop_min := Minimality for eval_loop Sort Prop.
Combined Scheme eval_all from eval_min, args_min, seq_min, loop_min.

Lemma parse_lit : forall fuel s l b w, take s = Some (lit_token l, mkSt b None false w) ->
  parse cb (S fuel) None s = match val_init (lit_token l) with Undefined => Undef | Invalid => Ret RErr VNull (mkSt b None false w) | Made v => Ret ROk v (mkSt b None false w) end.
Proof. intros fuel s l b w T. cbn [parse]. rewrite T. destruct l; reflexivity. Qed.
Lemma then_start : forall fuel last s t b w, take s = Some (t, mkSt b None false w) -> starter t ->
  then_body cb (S fuel) last s = match parse cb fuel None (push t (mkSt b None false w)) with Ret ROk v s => if at_eof s then Ret RErr VNull s else then_body cb fuel v s | o => o end.
Proof.
  intros fuel last s t b w T S. cbn [then_body]. rewrite T. destruct t as [| | | | | |n| |]; try reflexivity.
  cbn in S. destruct S as [->|[->|[->|[->| ->]]]]; reflexivity.
Qed.
Lemma body_start : forall fuel stop last s t b w, stop = K_fi \/ stop = K_end -> take s = Some (t, mkSt b None false w) -> starter t ->
  body cb (S fuel) stop last s = match parse cb fuel None (push t (mkSt b None false w)) with Ret ROk v s => if at_eof s then Ret RErr VNull s else body cb fuel stop v s | o => o end.
Proof.
  intros fuel stop last s t b w ST T S. cbn [body]. rewrite T. destruct t as [| | | | | |n| |]; try reflexivity.
  cbn in S. destruct ST as [->| ->], S as [->|[->|[->|[->| ->]]]]; reflexivity.
Qed.
Lemma parse_var : forall ns n s k ts w, holds s (TId n :: k :: ts) w -> follow k ->
  forall r w', cb w ns n None = (r, w') -> parses (fun f => parse cb f ns s) r k ts w'.
Proof.
  intros ns n s k ts w H F r w' C. destruct (take_next s _ _ w H ltac:(discriminate)) as (b & T & R).
  assert (K58 : is_spec 58 k = false) by (destruct k as [| | | | | | |c|]; try reflexivity; cbn [is_spec]; apply N.eqb_neq; intros E; subst c; elim (proj2 F); reflexivity).
  assert (K40 : is_spec 40 k = false) by (destruct k as [| | | | | | |c|]; try reflexivity; cbn [is_spec]; apply N.eqb_neq; intros E; subst c; elim (proj1 F); reflexivity).
  assert (X : exists l, expr_token b = LTok k l /\ forall w0, after (mkSt l (match k with TEof => None | _ => if is_spec 44 k then None else Some k end) false w0) k ts w0).
  { destruct (match k with TEof => true | _ => false end) eqn:KE.
    - destruct k; try discriminate. destruct (reads_end b ts R) as [R1 R2]. subst ts. exists None. split; [exact R1|]. intros w0. left. repeat split. apply r_eof. reflexivity.
    - assert (NE : k <> TEof) by (intros E; subst; discriminate). destruct (reads_next3 b k ts R NE) as (b' & B1 & B2 & B3). exists b'. split; [exact B1|]. intros w0.
      replace (match k with TEof => None | _ => if is_spec 44 k then None else Some k end) with (if is_spec 44 k then None else Some k) by (destruct k; try reflexivity; discriminate).
      destruct (is_spec 44 k) eqn:K44.
      + right. split; [destruct k; try discriminate; cbn [is_spec] in K44; apply N.eqb_eq in K44; subst; reflexivity|]. repeat split. exact B2.
      + left. repeat split. cbn. eauto 6. }
  destruct X as (l & X1 & X2).
  assert (G : forall fuel, parse cb (S fuel) ns s = let s := mkSt l (match k with TEof => None | _ => if is_spec 44 k then None else Some k end) false w' in match r with None => Ret RErr VNull s | Some v => Ret ROk v s end).
  { intros fuel. cbn [parse]. rewrite T. cbn [input at_eof world]. rewrite X1, K58, K40. cbn [world]. rewrite C. reflexivity. }
  destruct r as [v|].
  - eexists. split; [|apply X2]. exists 1%nat. intros [|fuel] L; [lia|]. rewrite G. reflexivity.
  - eexists. split; [exists 1%nat; intros [|fuel] L; [lia|]; rewrite G; reflexivity|]. reflexivity.
Qed.
Lemma holds_eof : forall s ts w, holds s ts w -> at_eof s = false.
Proof. intros s ts w H. apply H. Qed.
Lemma holds_world : forall s ts w, holds s ts w -> world s = w.
Proof. intros s ts w H. apply H. Qed.
Lemma parsed_parses : forall f r k ts w, parsed f r (k :: ts) w -> parses f r k ts w.
Proof. intros f [v|] k ts w H; [|exact H]. destruct H as (b & G & A & _). eexists. split; [exact G|left; apply holds_read; exact A]. Qed.
Lemma gives_step : forall (f g : nat -> outcome W) o, (forall fuel, g (S fuel) = f fuel) -> gives f o -> gives g o.
Proof. intros f g o E [n G]. exists (S n). intros [|fuel] L; [lia|]. rewrite E. apply G. lia. Qed.
Lemma parses_step : forall (f g : nat -> outcome W) r k ts w, (forall fuel, g (S fuel) = f fuel) -> parses f r k ts w -> parses g r k ts w.
Proof. intros f g [v|] k ts w E (s & G & A); exists s; (split; [|exact A]); apply (gives_step f); auto. Qed.
Lemma parsed_step : forall (f g : nat -> outcome W) r ts w, (forall fuel, g (S fuel) = f fuel) -> parsed f r ts w -> parsed g r ts w.
Proof. intros f g [v|] ts w E (s & G & A); exists s; (split; [|exact A]); apply (gives_step f); auto. Qed.
Lemma parsed_after : forall (f g h : nat -> outcome W) o r ts w, gives f o -> (forall fuel, f fuel = o -> h (S fuel) = g fuel) -> parsed g r ts w -> parsed h r ts w.
Proof.
  assert (X : forall (f g h : nat -> outcome W) o o', gives f o -> (forall fuel, f fuel = o -> h (S fuel) = g fuel) -> gives g o' -> gives h o').
  { intros f g h o o' [n F] E [m G]. exists (S (n + m)). intros [|fuel] L; [lia|]. rewrite E by (apply F; lia). apply G. lia. }
  intros f g h o [v|] ts w F E (s & G & A); exists s; (split; [|exact A]); exact (X f g h o _ F E G).
Qed.
Lemma parsed_fails : forall (f h : nat -> outcome W) s ts w, gives f (Ret RErr VNull s) -> world s = w -> (forall fuel, f fuel = Ret RErr VNull s -> h (S fuel) = Ret RErr VNull s) -> parsed h None ts w.
Proof. intros f h s ts w [n F] Ws E. exists s. split; [|exact Ws]. exists (S n). intros [|fuel] L; [lia|]. apply E, F. lia. Qed.
Lemma if_start : forall s ts w, holds s (TKw K_if :: ts) w -> exists b, reads b ts /\ forall fuel, parse cb (S fuel) None s = parse_if cb fuel (mkSt b None false w).
Proof. intros s ts w H. destruct (take_next s _ _ w H ltac:(discriminate)) as (b & T & R). exists b. split; [exact R|]. intros fuel. cbn [parse]. rewrite T. reflexivity. Qed.
Lemma loop_start : forall s ts w, holds s (TKw K_loop :: ts) w -> exists b, reads b ts /\ forall fuel, parse cb (S fuel) None s = parse_loop cb fuel b VNull (mkSt b None false w).
Proof. intros s ts w H. destruct (take_next s _ _ w H ltac:(discriminate)) as (b & T & R). exists b. split; [exact R|]. intros fuel. cbn [parse]. rewrite T. reflexivity. Qed.
Lemma kw_follow : forall k, follow (TKw k) /\ TKw k <> COMMA.
Proof. intros k. unfold follow. repeat split; discriminate. Qed.

Lemma args_eq : forall fuel ns n acc s, parse_args cb (S fuel) ns n acc s = match parse cb fuel None s with
        | Ret RErr v s => Ret RErr VNull s
        | Ret RRpar _ s => let '(v, w) := cb (world s) ns n (Some acc) in let s := mkSt (input s) (ahead s) (at_eof s) w in match v with None => Ret RErr VNull s | Some v => Ret ROk v s end
        | Ret RComma _ s => parse_args cb fuel ns n acc s
        | Ret ROk v s => if at_eof s then Ret RErr VNull s else parse_args cb fuel ns n (acc ++ [v]) s
        | o => o end.
Proof. reflexivity. Qed.
Lemma args_comma : forall ns n acc s us w, holds s (COMMA :: us) w ->
  exists s', holds s' us w /\ forall o, gives (fun f => parse_args cb f ns n acc s') o -> gives (fun f => parse_args cb f ns n acc s) o.
Proof.
  intros ns n acc s us w H. destruct (take_next s _ _ w H ltac:(discriminate)) as (b & T & R). exists (mkSt b None false w). split; [apply holds_read; exact R|].
  intros o [m G]. exists (S (S m)). intros [|[|fuel]] L; try lia. rewrite args_eq.
  replace (parse cb (S fuel) None s) with (Ret (W := W) RComma VNull (mkSt b None false w)) by (cbn [parse]; rewrite T; reflexivity). apply G. lia.
Qed.
Lemma arg_split : forall e es ts, exists k ts', arg_tokens (ECons e es) ++ RPAR :: ts = tokens e ++ k :: ts' /\ follow k /\ k <> TEof /\
  forall s w, after s k ts' w -> holds s (arg_tokens es ++ RPAR :: ts) w \/ holds s (COMMA :: arg_tokens es ++ RPAR :: ts) w.
Proof.
  intros e es ts. destruct es as [|e' es'].
  - exists RPAR, ts. split; [reflexivity|]. split; [split; discriminate|]. split; [discriminate|]. intros s w A. left. apply after_holds in A; [exact A|discriminate].
  - exists COMMA, (arg_tokens (ECons e' es') ++ RPAR :: ts). split; [|split; [split; discriminate|split; [discriminate|]]].
    + change (arg_tokens (ECons e (ECons e' es'))) with (tokens e ++ COMMA :: arg_tokens (ECons e' es')). rewrite <- app_assoc. reflexivity.
    + intros s w [A|[_ A]]; auto.
Qed.
(** Without a comma in front. *)
Lemma args_start : forall ns n acc us s w, holds s us w \/ holds s (COMMA :: us) w ->
  exists s', holds s' us w /\ forall o, gives (fun f => parse_args cb f ns n acc s') o -> gives (fun f => parse_args cb f ns n acc s) o.
Proof. intros ns n acc us s w [H|H]; [exists s; auto|apply args_comma; exact H]. Qed.
(** One expression of a body. *)
Lemma start_push : forall e us s w, holds s (tokens e ++ us) w -> exists t b, take s = Some (t, mkSt b None false w) /\ starter t /\ holds (push t (mkSt b None false w)) (tokens e ++ us) w.
Proof.
  intros e us s w H. destruct (first_token e) as (t & r & E & S). rewrite E in *. cbn [app] in *. destruct (starter_ok t S) as (N & _ & _).
  destruct (take_next3 s _ _ w H N) as (b & T & R & SF). exists t, b. split; [exact T|]. split; [exact S|]. apply holds_push; auto.
Qed.

Lemma kw_not_eof : forall k, TKw k <> TEof.
Proof. discriminate. Qed.
Lemma last_loop : forall e es k ts, seq_tokens es ++ [TEof] = k :: ts -> bl = true \/ ends_with_loop (ECons e es) = false -> bl = true \/ k <> TEof \/ is_loop e = false.
Proof.
  intros e es k ts E [B|B]; [auto|]. right. destruct es as [|e' es']; [right; exact B|]. left. cbn [seq_tokens] in E.
  destruct (first_token e') as (t & r & T & S). rewrite T in E. cbn [app] in E. injection E as E _. subst k. apply (starter_ok t S).
Qed.
Lemma later_loop : forall e es, bl = true \/ ends_with_loop (ECons e es) = false -> bl = true \/ ends_with_loop es = false.
Proof. intros e es [B|B]; [auto|]. right. destruct es; [reflexivity|exact B]. Qed.
Theorem evaluates :
  (forall w e r w', eval cb true w e r w' -> P_eval w e r w') /\
  (forall w es r w', eval_args cb true w es r w' -> P_args w es r w') /\
  (forall w v es r w', eval_seq cb true w v es r w' -> P_seq w v es r w') /\
  (forall w v c b r w', eval_loop cb true w v c b r w' -> P_loop w v c b r w').
Proof.
  apply (eval_all W cb true P_eval P_args P_seq P_loop).
  - (* literals *)
    intros w l v V s k ts H F B. cbn [tokens app] in H.
    destruct (take_next s _ _ w H) as (b & T & R); [destruct l; discriminate|].
    exists (mkSt b None false w). split; [|left; apply holds_read; exact R].
    exists 1%nat. intros [|fuel] L; [lia|]. rewrite (parse_lit fuel s l b w T), (val_init_lit l v V). reflexivity.
  - (* variables *)
    intros w ns n r w' C s k ts H F B. cbn [tokens] in H. rewrite <- app_assoc in H. destruct (path_start ns s _ w H) as (s' & H' & E).
    pose proof (parse_var (path ns) n s' k ts w H' F r w' C) as G.
    destruct r as [v|]; destruct G as (s1 & G & A); exists s1; (split; [|exact A]); apply (gives_path ns s s'); auto.
  - (* calls *)
    intros w ns n args vs w1 r w2 EA IH C s k ts H F B. cbn [tokens] in H. rewrite <- app_assoc in H. destruct (path_start ns s _ w H) as (s' & H' & E).
    cbn [app] in H'. rewrite <- app_assoc in H'. cbn [app] in H'.
    destruct (take_next s' _ _ w H' ltac:(discriminate)) as (b & T & R). destruct (reads_next b LPAR _ R ltac:(discriminate)) as (b' & B1 & B2).
    destruct (IH (mkSt b' None false w) [] (path ns) n (k :: ts) (or_introl (holds_read b' _ w B2))) as (s2 & H2 & G).
    cbn [app] in G. rewrite C in G.
    assert (G' : gives (fun f => parse cb f None s) (finish (r, w2) s2)).
    { apply (gives_path ns s s'); [exact E|]. refine (gives_step _ _ _ _ G). intros fuel. cbn [parse]. rewrite T. cbn [input at_eof world]. rewrite B1. reflexivity. }
    destruct H2 as (Q1 & Q2 & Q3).
    destruct r as [v|]; unfold finish in G'; cbn [fst snd] in G'; eexists; (split; [exact G'|]).
    + left. repeat split; auto.
    + reflexivity.
  - (* calls with arguments that fail *)
    intros w ns n args w1 EA IH s k ts H F B. cbn [tokens] in H. rewrite <- app_assoc in H. destruct (path_start ns s _ w H) as (s' & H' & E).
    cbn [app] in H'. rewrite <- app_assoc in H'. cbn [app] in H'.
    destruct (take_next s' _ _ w H' ltac:(discriminate)) as (b & T & R). destruct (reads_next b LPAR _ R ltac:(discriminate)) as (b' & B1 & B2).
    destruct (IH (mkSt b' None false w) [] (path ns) n (k :: ts) (or_introl (holds_read b' _ w B2))) as (s2 & G & W2).
    exists s2. split; [|exact W2].
    apply (gives_path ns s s'); [exact E|]. refine (gives_step _ _ _ _ G). intros fuel. cbn [parse]. rewrite T. cbn [input at_eof world]. rewrite B1. reflexivity.
  - (* if, failing condition *)
    intros w c a b w1 EC IH s k ts H F B. cbn [tokens app] in H. destruct (if_start s _ w H) as (x & R & E). apply parsed_parses.
    apply (parsed_step (fun f => parse_if cb f (mkSt x None false w))); [exact E|].
    rewrite <- app_assoc in R. destruct (IH _ _ _ (holds_read x _ w R) (proj1 (kw_follow _)) (or_intror (or_introl (kw_not_eof _)))) as (s1 & G & W1).
    apply (parsed_fails _ _ s1 _ _ G W1). intros fuel Q. cbn [parse_if]. rewrite Q. reflexivity.
  - (* if, true *)
    intros w c a b v w1 r w2 EC IHc V ES IHs s k ts H F B. cbn [tokens app] in H. destruct (if_start s _ w H) as (x & R & E). apply parsed_parses.
    apply (parsed_step (fun f => parse_if cb f (mkSt x None false w))); [exact E|].
    rewrite <- !app_assoc in R. cbn [app] in R. rewrite <- !app_assoc in R. cbn [app] in R. rewrite <- !app_assoc in R. cbn [app] in R.
    destruct (IHc _ _ _ (holds_read x _ w R) (proj1 (kw_follow _)) (or_intror (or_introl (kw_not_eof _)))) as (s1 & G & A).
    apply after_holds in A; [|discriminate]. destruct (take_next s1 _ _ w1 A ltac:(discriminate)) as (y & T & R1).
    destruct IHs as (_ & IH2 & _).
    pose proof (IH2 (mkSt y None false w1) (TKw K_else) _ (k :: ts) (holds_read y _ w1 R1) (or_intror (conj eq_refl (ex_intro _ b eq_refl)))) as IH3.
    refine (parsed_after _ _ _ _ _ _ _ G _ IH3). intros fuel Q. cbn [parse_if]. rewrite Q, (holds_eof s1 _ _ A), T, (proj2 (truth_iff v) V). reflexivity.
  - (* if, false *)
    intros w c a b v w1 r w2 EC IHc V ES IHs s k ts H F B. cbn [tokens app] in H. destruct (if_start s _ w H) as (x & R & E). apply parsed_parses.
    apply (parsed_step (fun f => parse_if cb f (mkSt x None false w))); [exact E|].
    rewrite <- !app_assoc in R. cbn [app] in R. rewrite <- !app_assoc in R. cbn [app] in R. rewrite <- !app_assoc in R. cbn [app] in R.
    destruct (IHc _ _ _ (holds_read x _ w R) (proj1 (kw_follow _)) (or_intror (or_introl (kw_not_eof _)))) as (s1 & G & A).
    apply after_holds in A; [|discriminate]. destruct (take_next s1 _ _ w1 A ltac:(discriminate)) as (y & T & R1).
    destruct (skip_else_seq a (mkSt y None false w1) _ w1 (holds_read y _ w1 R1)) as (b2 & H2 & G2).
    destruct IHs as (IH1 & _). pose proof (IH1 (mkSt b2 None false w1) K_fi (k :: ts) (or_introl eq_refl) (holds_read b2 _ w1 (proj1 H2))) as IH3.
    destruct G2 as [n2 G2]. destruct G as [n1 G].
    destruct r as [u|]; destruct IH3 as (s3 & [n3 G3] & A3); exists s3; (split; [|exact A3]); exists (S (n1 + n2 + n3)); (intros [|fuel] L; [lia|]);
      cbn [parse_if]; rewrite G by lia; rewrite (holds_eof s1 _ _ A), T, (truth_false v V); rewrite G2 by lia; apply G3; lia.
  - (* if without else, failing condition *)
    intros w c a w1 EC IH s k ts H F B. cbn [tokens app] in H. destruct (if_start s _ w H) as (x & R & E). apply parsed_parses.
    apply (parsed_step (fun f => parse_if cb f (mkSt x None false w))); [exact E|].
    rewrite <- app_assoc in R. destruct (IH _ _ _ (holds_read x _ w R) (proj1 (kw_follow _)) (or_intror (or_introl (kw_not_eof _)))) as (s1 & G & W1).
    apply (parsed_fails _ _ s1 _ _ G W1). intros fuel Q. cbn [parse_if]. rewrite Q. reflexivity.
  - (* if without else, true *)
    intros w c a v w1 r w2 EC IHc V ES IHs s k ts H F B. cbn [tokens app] in H. destruct (if_start s _ w H) as (x & R & E). apply parsed_parses.
    apply (parsed_step (fun f => parse_if cb f (mkSt x None false w))); [exact E|].
    rewrite <- !app_assoc in R. cbn [app] in R. rewrite <- !app_assoc in R. cbn [app] in R.
    destruct (IHc _ _ _ (holds_read x _ w R) (proj1 (kw_follow _)) (or_intror (or_introl (kw_not_eof _)))) as (s1 & G & A).
    apply after_holds in A; [|discriminate]. destruct (take_next s1 _ _ w1 A ltac:(discriminate)) as (y & T & R1).
    destruct IHs as (_ & IH2 & _).
    pose proof (IH2 (mkSt y None false w1) (TKw K_fi) _ (k :: ts) (holds_read y _ w1 R1) (or_introl (conj eq_refl eq_refl))) as IH3.
    refine (parsed_after _ _ _ _ _ _ _ G _ IH3). intros fuel Q. cbn [parse_if]. rewrite Q, (holds_eof s1 _ _ A), T, (proj2 (truth_iff v) V). reflexivity.
  - (* if without else, false *)
    intros w c a v w1 X. discriminate.
  - (* loops *)
    intros w c b r w' EL IH s k ts H F B. cbn [tokens app] in H. destruct (loop_start s _ w H) as (x & R & E). apply parsed_parses.
    apply (parsed_step (fun f => parse_loop cb f x VNull (mkSt x None false w))); [exact E|].
    rewrite <- !app_assoc in R. cbn [app] in R. rewrite <- !app_assoc in R. cbn [app] in R. apply IH; [exact R|]. destruct B as [B|[B|B]]; [auto| |discriminate]. right. intros X. injection X as X1 X2. auto.
  - (* no arguments *)
    intros w s acc ns n ts H. destruct (args_start ns n acc _ s w H) as (s0 & H0 & G0). cbn [arg_tokens app] in H0.
    destruct (take_next s0 _ _ w H0 ltac:(discriminate)) as (b & T & R). exists (mkSt b None false w). split; [apply holds_read; exact R|].
    apply G0. exists 2%nat. intros [|[|fuel]] L; [lia|lia|]. rewrite args_eq. cbn [parse]. rewrite T. cbn [RPAR N.eqb Pos.eqb]. cbn [input ahead at_eof world]. rewrite app_nil_r.
    unfold finish. cbn [input ahead at_eof world]. destruct (cb w ns n (Some acc)) as [[v|] w2]; reflexivity.
  - (* an argument that fails *)
    intros w e es w1 EE IH s acc ns n ts H. destruct (args_start ns n acc _ s w H) as (s0 & H0 & G0).
    destruct (arg_split e es ts) as (k & ts' & E & F & NE & A). rewrite E in H0. destruct (IH s0 k ts' H0 F (or_intror (or_introl NE))) as (s1 & [m G] & W1).
    exists s1. split; [|exact W1]. apply G0. exists (S m). intros [|fuel] L; [lia|]. rewrite args_eq, G by lia. reflexivity.
  - (* an argument *)
    intros w e es v w1 vs w2 EE IHe EA IHa s acc ns n ts H. destruct (args_start ns n acc _ s w H) as (s0 & H0 & G0).
    destruct (arg_split e es ts) as (k & ts' & E & F & NE & A). rewrite E in H0. destruct (IHe s0 k ts' H0 F (or_intror (or_introl NE))) as (s1 & [m G] & A1).
    destruct (IHa s1 (acc ++ [v]) ns n ts (A s1 w1 A1)) as (s2 & H2 & [m2 G2]). exists s2. split; [exact H2|]. apply G0.
    assert (EO : at_eof s1 = false) by (destruct A1 as [A1|[_ A1]]; apply A1).
    exists (S (m + m2)). intros [|fuel] L; [lia|]. rewrite args_eq, G, EO by lia. rewrite G2 by lia. rewrite <- app_assoc. reflexivity.
  - (* an argument in front of one that fails *)
    intros w e es v w1 w2 EE IHe EA IHa s acc ns n ts H. destruct (args_start ns n acc _ s w H) as (s0 & H0 & G0).
    destruct (arg_split e es ts) as (k & ts' & E & F & NE & A). rewrite E in H0. destruct (IHe s0 k ts' H0 F (or_intror (or_introl NE))) as (s1 & [m G] & A1).
    destruct (IHa s1 (acc ++ [v]) ns n ts (A s1 w1 A1)) as (s2 & [m2 G2] & W2). exists s2. split; [|exact W2]. apply G0.
    assert (EO : at_eof s1 = false) by (destruct A1 as [A1|[_ A1]]; apply A1).
    exists (S (m + m2)). intros [|fuel] L; [lia|]. rewrite args_eq, G, EO by lia. apply G2. lia.
  - (* the end of a sequence *)
    intros w v. split; [|split].
    + intros s stop ts ST H. cbn [seq_tokens app] in H. destruct (take_next3 s _ _ w H ltac:(discriminate)) as (b & T & R & SF).
      exists b. split; [|auto]. exists 1%nat. intros [|fuel] L; [lia|]. cbn [body]. rewrite T, Nat.eqb_refl. reflexivity.
    + intros s k ts ts2 H [(K & E)|(K & b & E)]; subst k; cbn [seq_tokens app] in H; destruct (take_next3 s _ _ w H ltac:(discriminate)) as (x & T & R & SF).
      * subst ts2. exists x. split; [|auto]. exists 1%nat. intros [|fuel] L; [lia|]. cbn [then_body]. rewrite T. reflexivity.
      * subst ts. destruct (skip_fi_seq b (mkSt x None false w) ts2 w (holds_read x _ w R)) as (s2 & H2 & [m G]).
        exists s2. split; [|exact H2]. exists (S m). intros [|fuel] L; [lia|]. cbn [then_body]. rewrite T. cbn [K_else]. rewrite G by lia. reflexivity.
    + intros s ret H B V. cbn [seq_tokens app] in H. destruct (take_end s [] w H) as (_ & l & T). exists 2%nat. intros [|[|fuel]] L; try lia.
      cbn [run_loop]. cbn [parse]. rewrite T. cbn [at_eof world]. subst v. reflexivity.
  - (* a failing expression of a sequence *)
    intros w v e es w1 EE IH. split; [|split].
    + intros s stop ts ST H. cbn [seq_tokens] in H. rewrite <- app_assoc in H. destruct (start_push e _ s w H) as (t & b & T & TS & H1).
      destruct (seq_head es (TKw stop) ts) as (k' & ts' & E & F & _ & NE); [unfold closer; destruct ST; subst; auto|]. rewrite E in H1. specialize (NE ltac:(discriminate)).
      destruct (IH _ _ _ H1 F (or_intror (or_introl NE))) as (s1 & [m G] & W1). exists s1. split; [|exact W1]. exists (S m). intros [|fuel] L; [lia|].
      rewrite (body_start fuel stop v s t b w ST T TS), G by lia. reflexivity.
    + intros s k ts ts2 H K. cbn [seq_tokens] in H. rewrite <- app_assoc in H. destruct (start_push e _ s w H) as (t & b & T & TS & H1).
      destruct (seq_head es k ts) as (k' & ts' & E & F & _ & NE); [unfold closer; destruct K as [(K & _)|(K & _)]; subst; auto|]. rewrite E in H1. specialize (NE ltac:(destruct K as [(K & _)|(K & _)]; rewrite K; discriminate)).
      destruct (IH _ _ _ H1 F (or_intror (or_introl NE))) as (s1 & [m G] & W1). exists s1. split; [|exact W1]. exists (S m). intros [|fuel] L; [lia|].
      rewrite (then_start fuel v s t b w T TS), G by lia. reflexivity.
    + intros s ret H B V. cbn [seq_tokens] in H. rewrite <- app_assoc in H.
      destruct (seq_head es TEof []) as (k' & ts' & E & F & _ & _); [unfold closer; auto 6|].
      pose proof (last_loop e es k' ts' E B) as B1. rewrite E in H.
      destruct (IH _ _ _ H F B1) as (s1 & [m G] & W1). exists (S m). intros [|fuel] L; [lia|]. cbn [run_loop]. rewrite G by lia. rewrite W1. reflexivity.
  - (* the next expression of a sequence *)
    intros w v e es v1 w1 r w2 EE IHe ES (IH1 & IH2 & IH3). split; [|split].
    + intros s stop ts ST H. cbn [seq_tokens] in H. rewrite <- app_assoc in H. destruct (start_push e _ s w H) as (t & b & T & TS & H1).
      destruct (seq_head es (TKw stop) ts) as (k' & ts' & E & F & N & NE); [unfold closer; destruct ST; subst; auto|]. rewrite E in H1. specialize (NE ltac:(discriminate)).
      destruct (IHe _ _ _ H1 F (or_intror (or_introl NE))) as (s1 & G & A1). apply after_holds in A1; [|exact N]. rewrite <- E in A1.
      refine (parsed_after _ _ _ _ _ _ _ G _ (IH1 s1 stop ts ST A1)). intros fuel Q. rewrite (body_start fuel stop v s t b w ST T TS), Q, (holds_eof _ _ _ A1). reflexivity.
    + intros s k ts ts2 H K. cbn [seq_tokens] in H. rewrite <- app_assoc in H. destruct (start_push e _ s w H) as (t & b & T & TS & H1).
      destruct (seq_head es k ts) as (k' & ts' & E & F & N & NE); [unfold closer; destruct K as [(K & _)|(K & _)]; subst; auto|]. rewrite E in H1. specialize (NE ltac:(destruct K as [(K & _)|(K & _)]; rewrite K; discriminate)).
      destruct (IHe _ _ _ H1 F (or_intror (or_introl NE))) as (s1 & G & A1). apply after_holds in A1; [|exact N]. rewrite <- E in A1.
      refine (parsed_after _ _ _ _ _ _ _ G _ (IH2 s1 k ts ts2 A1 K)). intros fuel Q. rewrite (then_start fuel v s t b w T TS), Q, (holds_eof _ _ _ A1). reflexivity.
    + intros s ret H B V. cbn [seq_tokens] in H. rewrite <- app_assoc in H.
      destruct (seq_head es TEof []) as (k' & ts' & E & F & N & _); [unfold closer; auto 6|].
      pose proof (last_loop e es k' ts' E B) as B1. rewrite E in H.
      destruct (IHe _ _ _ H F B1) as (s1 & [m G] & A1). apply after_holds in A1; [|exact N]. rewrite <- E in A1.
      destruct (IH3 s1 (Some v1) A1 (later_loop e es B) eq_refl) as [m3 G3]. exists (S (m + m3)). intros [|fuel] L; [lia|]. cbn [run_loop]. rewrite G, (holds_eof _ _ _ A1) by lia. apply G3. lia.
  - (* a loop whose condition fails *)
    intros w v c b w1 EC IH off ts R B. destruct (IH _ _ _ (holds_read off _ w R) (proj1 (kw_follow _)) (or_intror (or_introl (kw_not_eof _)))) as (s1 & G & W1).
    apply (parsed_fails _ _ s1 _ _ G W1). intros fuel Q. cbn [parse_loop]. rewrite Q. reflexivity.
  - (* the end of a loop *)
    intros w v c b x w1 EC IH V off ts R B. destruct (IH _ _ _ (holds_read off _ w R) (proj1 (kw_follow _)) (or_intror (or_introl (kw_not_eof _)))) as (s1 & [m G] & A).
    apply after_holds in A; [|discriminate]. destruct (take_next s1 _ _ w1 A ltac:(discriminate)) as (y & T & R1).
    destruct (skip_end_seq b (mkSt y None false w1) ts w1 (holds_read y _ w1 R1)) as (s2 & H2 & [m2 G2]).
    exists s2. split; [|exact H2]. exists (S (m + m2)). intros [|fuel] L; [lia|]. cbn [parse_loop]. rewrite G, (holds_eof _ _ _ A), T, (truth_false x V) by lia. cbn [K_do]. rewrite G2 by lia. reflexivity.
  - (* a loop whose body fails *)
    intros w v c b x w1 w2 EC IH V ES (IH1 & _) off ts R B. destruct (IH _ _ _ (holds_read off _ w R) (proj1 (kw_follow _)) (or_intror (or_introl (kw_not_eof _)))) as (s1 & [m G] & A).
    apply after_holds in A; [|discriminate]. destruct (take_next s1 _ _ w1 A ltac:(discriminate)) as (y & T & R1).
    destruct (IH1 (mkSt y None false w1) K_end ts (or_intror eq_refl) (holds_read y _ w1 R1)) as (s2 & [m2 G2] & W2).
    exists s2. split; [|exact W2]. exists (S (m + m2)). intros [|fuel] L; [lia|]. cbn [parse_loop]. rewrite G, (holds_eof _ _ _ A), T, (proj2 (truth_iff x) V) by lia. cbn [K_do]. rewrite G2 by lia. reflexivity.
  - (* a loop that goes on *)
    intros w v c b x w1 v' w2 r w3 EC IH V ES (IH1 & _) EL IHL off ts R B. destruct (IH _ _ _ (holds_read off _ w R) (proj1 (kw_follow _)) (or_intror (or_introl (kw_not_eof _)))) as (s1 & [m G] & A).
    apply after_holds in A; [|discriminate]. destruct (take_next s1 _ _ w1 A ltac:(discriminate)) as (y & T & R1).
    destruct (IH1 (mkSt y None false w1) K_end ts (or_intror eq_refl) (holds_read y _ w1 R1)) as (b2 & [m2 G2] & R2 & SM).
    specialize (IHL off ts R B).
    assert (OFF : exists o os, off = Some (o :: os)).
    { destruct (first_token c) as (t & u & E & TS). rewrite E in R. cbn [app] in R. destruct (starter_ok t TS) as (N & _ & _).
      destruct (reads_next _ _ _ R N) as (b' & B1 & _). destruct off as [[|o os]|]; [cbn in B1; congruence|eauto|cbn in B1; congruence]. }
    assert (RW : rewind off (mkSt b2 None false w2) = mkSt off None false w2).
    { destruct OFF as (o & os & OFF). subst off. destruct b2 as [b2|]; [reflexivity|]. destruct (SM eq_refl) as [X1 X2]. destruct B; congruence. }
    destruct r as [u|]; destruct IHL as (s3 & [m3 G3] & A3); exists s3; (split; [|exact A3]); exists (S (m + m2 + m3)); (intros [|fuel] L; [lia|]);
      cbn [parse_loop]; rewrite G, (holds_eof _ _ _ A), T, (proj2 (truth_iff x) V) by lia; cbn [K_do]; rewrite G2 by lia; rewrite RW; apply G3; lia.
Qed.
End Run.
