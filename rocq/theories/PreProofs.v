(** * The preprocessor: proofs *)
Require Import List Arith NArith Bool Lia.
Require Import ZifyBool ZifyNat ZifyN.
Require Import Verif.Base Verif.LexModel Verif.LexSpec Verif.LexProofs Verif.PreModel Verif.PreSpec.
Import ListNotations.
Local Open Scope N_scope.

Lemma same_refl a : same a a = true.
Proof. unfold same. destruct (list_eq_dec N.eq_dec a a); congruence. Qed.
Lemma same_iff a b : same a b = true <-> a = b.
Proof. unfold same. destruct (list_eq_dec N.eq_dec a b); split; congruence. Qed.
Lemma same_false a b : a <> b -> same a b = false.
Proof. intros H. destruct (same a b) eqn:E; [|reflexivity]. apply same_iff in E. congruence. Qed.

(** ** Reading *)
Lemma take1_here p a c r : Forall (fun x => p x = true) a -> p c = false -> take1 p (a ++ c :: r) = (a, Some (c :: r)).
Proof. intros F H. induction F as [|x a X F IH]; cbn [app take1]; [now rewrite H|]. now rewrite X, IH. Qed.
Lemma take1_all p a : Forall (fun x => p x = true) a -> take1 p a = (a, None).
Proof. intros F. induction F as [|x a X F IH]; cbn [take1]; [reflexivity|]. now rewrite X, IH. Qed.
Lemma take_here p n a c r b : Forall (fun x => p x = true) a -> p c = false -> take p ((n, a ++ c :: r) :: b) = (a, (n, c :: r) :: b).
Proof. intros F H. cbn [take]. now rewrite take1_here. Qed.
Lemma take_none p : forall b c i, getc b = Some (c, i) -> p c = false -> exists j, take p b = ([], j) /\ getc j = Some (c, i).
Proof.
  induction b as [|[n t] b IH]; intros c i G H; [discriminate|]. destruct t as [|x t]; cbn [getc] in G.
  - destruct (IH c i G H) as (j & T & J). exists j. split; [|exact J]. cbn [take take1]. now rewrite T.
  - injection G as -> <-. exists ((n, c :: t) :: b). split; [|reflexivity]. cbn [take take1]. now rewrite H.
Qed.
Lemma take_until p n a u b c i : Forall (fun x => p x = true) a -> getc ((n, u) :: b) = Some (c, i) -> p c = false ->
  exists j, take p ((n, a ++ u) :: b) = (a, j) /\ getc j = Some (c, i).
Proof.
  intros F G H. destruct u as [|x u].
  - cbn [getc] in G. destruct (take_none p b c i G H) as (j & T & J). exists j. split; [|exact J]. cbn [take]. rewrite app_nil_r, take1_all by exact F. rewrite T. now rewrite app_nil_r.
  - cbn [getc] in G. injection G as -> <-. exists ((n, c :: u) :: b). split; [now apply take_here|reflexivity].
Qed.

Section Kw.
Variable files : bytes -> option bytes.
Variable kw : list bytes.
Hypothesis Hkw : keywords_ok kw.
Notation step := (step files kw).
Notation lex := (lex files kw).

Lemma step_getc s i j : getc i = getc j -> step (with_inp s i) = step (with_inp s j).
Proof. intros G. unfold PreModel.step. cbn [inp with_inp]. rewrite G. destruct (getc j) as [[c r]|]; reflexivity. Qed.

Definition toks (o : option token) : list token := match o with Some t => [t] | None => [] end.
Inductive plus : pst -> list token -> pst -> Prop :=
| plus_one s s' o : step s = Go s' o -> plus s (toks o) s'
| plus_more s s1 o ts s' : step s = Go s1 o -> plus s1 ts s' -> plus s (toks o ++ ts) s'.
Lemma plus_app s t1 s1 t2 s2 : plus s t1 s1 -> plus s1 t2 s2 -> plus s (t1 ++ t2) s2.
Proof. intros P Q. induction P as [s s' o E|s s1 o ts s' E P IH]; [now apply (plus_more _ _ _ _ _ E)|]. rewrite <- app_assoc. apply (plus_more _ _ _ _ _ E). now apply IH. Qed.
Lemma plus_getc s i j ts s' : getc i = getc j -> plus (with_inp s i) ts s' -> plus (with_inp s j) ts s'.
Proof. intros G P. inversion P as [? ? ? E|? ? ? ? ? E Q]; subst; rewrite (step_getc s i j G) in E; [now apply plus_one|now apply (plus_more _ _ _ _ _ E)]. Qed.
Inductive star : pst -> list token -> pst -> Prop := star_refl s : star s [] s | star_plus s ts s' : plus s ts s' -> star s ts s'.
Lemma plus_star s t1 s1 t2 s2 : plus s t1 s1 -> star s1 t2 s2 -> plus s (t1 ++ t2) s2.
Proof. intros P Q. destruct Q as [s1|s1 t2 s2 Q]; [now rewrite app_nil_r|now apply (plus_app _ _ s1)]. Qed.
Lemma star_app s t1 s1 t2 s2 : star s t1 s1 -> star s1 t2 s2 -> star s (t1 ++ t2) s2.
Proof. intros P Q. destruct P as [s|s t1 s1 P]; [exact Q|]. apply star_plus. now apply (plus_star _ _ s1). Qed.
Lemma step_star s s1 o ts s' : step s = Go s1 o -> star s1 ts s' -> star s (toks o ++ ts) s'.
Proof. intros E Q. apply star_plus. apply (plus_star _ _ s1); [now apply plus_one|exact Q]. Qed.
Lemma lex_plus s ts s' : plus s ts s' -> exists k, forall n, lex (k + n) s = match lex n s' with (a, e, f) => (ts ++ a, e, f) end.
Proof.
  intros P. induction P as [s s' o E|s s1 o ts s' E P (k & IH)].
  - exists 1%nat. intros n. cbn [Nat.add PreModel.lex]. rewrite E. destruct o; destruct (lex n s') as [[a e] f]; reflexivity.
  - exists (S k). intros n. cbn [Nat.add PreModel.lex]. rewrite E, IH. destruct (lex n s') as [[a e] f]. destruct o; reflexivity.
Qed.
Lemma lex_star s ts s' : star s ts s' -> exists k, forall n, lex (k + n) s = match lex n s' with (a, e, f) => (ts ++ a, e, f) end.
Proof. intros P. destruct P as [s|s ts s' P]; [|now apply lex_plus]. exists O. intros n. cbn [Nat.add]. destruct (lex n s) as [[a e] f]. reflexivity. Qed.
Lemma lex_more : forall n s ts e f k, lex n s = (ts, e, f) -> e <> NoFuel -> lex (n + k) s = (ts, e, f).
Proof.
  induction n as [|n IH]; intros s ts e f k E N; cbn [PreModel.lex Nat.add] in *; [congruence|]. destruct (step s) as [s' [t|]|s'| |]; auto.
  destruct (lex n s') as [[a e'] f'] eqn:L. injection E as <- <- <-. now rewrite (IH _ _ _ _ k L N).
Qed.
Lemma lex_fun n m s ts e f ts' e' f' : lex n s = (ts, e, f) -> lex m s = (ts', e', f') -> e <> NoFuel -> e' <> NoFuel -> (ts, e, f) = (ts', e', f').
Proof. intros A B C D. apply (lex_more _ _ _ _ _ m) in A; [|exact C]. apply (lex_more _ _ _ _ _ n) in B; [|exact D]. rewrite Nat.add_comm in B. congruence. Qed.

(** ** Tokens *)
Definition space_or_line (c : N) : Prop := c = 32 \/ c = 10.
Lemma special_other c : special c = true -> c <> 95 -> is_letter c = false /\ isdigit c = false /\ ((c =? 10) || PreModel.blank c) = false.
Proof. unfold special, is_letter, isalpha, isdigit, PreModel.blank. lia. Qed.
Lemma letter_not c : letter c -> ((c =? 10) || PreModel.blank c) = false /\ is_letter c = true.
Proof. unfold letter, PreModel.blank, is_letter, isalpha. lia. Qed.
Lemma digit_not c : dec_digit c -> ((c =? 10) || PreModel.blank c) = false /\ is_letter c = false /\ isdigit c = true.
Proof. unfold dec_digit, PreModel.blank, is_letter, isalpha, isdigit. lia. Qed.
Lemma sol_word c : space_or_line c -> PreModel.word_char c = false /\ (isdigit c || isalpha c || (c =? 46)) = false.
Proof. intros [->| ->]; split; reflexivity. Qed.
Lemma word_step s n x u b c i : word x -> getc ((n, u) :: b) = Some (c, i) -> space_or_line c ->
  exists j, getc j = Some (c, i) /\ step (with_inp s ((n, x ++ u) :: b)) = emit (with_inp s j) (match keyword kw x 0 with Some k => TKw k | None => TId x end).
Proof.
  intros W G S. assert (W' := W). destruct W' as [_ N]. destruct (word_chars x W) as (F & y & r & -> & L). inversion F as [|? ? F1 F2]; subst. destruct (letter_not y L) as [B1 B2].
  destruct (take_until PreModel.word_char n r u b c i) as (j & T & J); [exact F2|exact G|apply sol_word, S|]. exists j. split; [exact J|].
  unfold PreModel.step. cbn [inp with_inp app getc]. rewrite B1, B2, T. rewrite same_false by exact N. reflexivity.
Qed.
Lemma piece_step s n t x u b c i : a_piece kw (t, x) -> getc ((n, u) :: b) = Some (c, i) -> space_or_line c ->
  exists j, getc j = Some (c, i) /\ step (with_inp s ((n, x ++ u) :: b)) = emit (with_inp s j) t.
Proof.
  intros P G S. unfold a_piece in P. cbn [fst snd] in P. destruct Hkw as [K1 K2]. destruct P as [x W N|k x E|t x Nu|t x (d & D1 & D2 & -> & ->)].
  - destruct (word_step s n x u b c i W G S) as (j & J & E). exists j. split; [exact J|]. apply (keyword_none kw x 0) in N. now rewrite N in E.
  - assert (W : word x) by (rewrite Forall_forall in K1; apply K1; eapply nth_error_In; eauto). destruct (word_step s n x u b c i W G S) as (j & J & E2). exists j. split; [exact J|].
    rewrite (keyword_nth kw K2 k x 0 E) in E2. exact E2.
  - destruct (numeral_chars t x Nu) as (F & y & r & -> & D). inversion F as [|? ? F1 F2]; subst. destruct (digit_not y D) as (B1 & B2 & B3).
    destruct (take_until (fun c => isdigit c || isalpha c || (c =? 46)) n r u b c i) as (j & T & J); [exact F2|exact G|apply sol_word, S|]. exists j. split; [exact J|].
    unfold PreModel.step. cbn [inp with_inp app getc]. rewrite B1, B2, B3, T, (number_spelled t _ Nu). reflexivity.
  - destruct (N.eq_dec d 95) as [->|D3].
    + destruct (take_until PreModel.word_char n [] u b c i) as (j & T & J); [constructor|exact G|apply sol_word, S|]. exists j. split; [exact J|].
      unfold PreModel.step. cbn [inp with_inp app getc]. change ((95 =? 10) || PreModel.blank 95) with false. change (is_letter 95) with true. cbn [app] in T. rewrite T. reflexivity.
    + exists ((n, u) :: b). split; [exact G|]. destruct (special_other d D1 D3) as (B1 & B2 & B3). unfold PreModel.step. cbn [inp with_inp app getc]. apply N.eqb_neq in D2. now rewrite B3, B1, B2, D2, D1.
Qed.
Lemma name_piece k : a_name k -> exists t, a_piece kw (t, k).
Proof.
  intros [W| ->].
  - destruct (in_dec (list_eq_dec N.eq_dec) k kw) as [I|I].
    + apply In_nth_error in I. destruct I as (i & E). exists (TKw i). now apply sp_kw.
    + exists (TId k). now apply sp_word.
  - exists (TDec [49]). apply sp_num. apply (n_dec 49 []); [lia|constructor].
Qed.
Lemma blank_step s n c u b : PreModel.blank c = true \/ c = 10 -> step (with_inp s ((n, c :: u) :: b)) = Go (with_inp s ((n, u) :: b)) None.
Proof. intros H. unfold PreModel.step. cbn [inp with_inp getc]. replace ((c =? 10) || PreModel.blank c) with true; [reflexivity|]. destruct H as [H| ->]; [rewrite H; now rewrite orb_true_r|reflexivity]. Qed.
Lemma line_step s i j : getc i = Some (10, j) -> step (with_inp s i) = Go (with_inp s j) None.
Proof. intros G. unfold PreModel.step. cbn [inp with_inp]. rewrite G. reflexivity. Qed.
Definition shown (g : bool) (ts : list token) : list token := if g then [] else ts.
Lemma emit_toks s t : emit s t = Go s (if ignore s then None else Some t).
Proof. reflexivity. Qed.
Lemma toks_shown (g : bool) (t : token) : toks (if g then None else Some t) = shown g [t].
Proof. destruct g; reflexivity. Qed.
Lemma shown_app g a b : shown g a ++ shown g b = shown g (a ++ b).
Proof. destruct g; reflexivity. Qed.
(** Pieces, each behind a blank, up to the end of the line. *)
Lemma pieces_run s n u b i : getc ((n, u) :: b) = Some (10, i) -> forall v, Forall (a_piece kw) v -> plus (with_inp s ((n, spaced v ++ u) :: b)) (shown (ignore s) (map fst v)) (with_inp s i).
Proof.
  intros G v F. induction F as [|[t x] v P F IH].
  - cbn [spaced concat map app]. replace (shown (ignore s) []) with (toks None) by (destruct (ignore s); reflexivity). apply plus_one. now apply line_step.
  - cbn [map fst]. change (t :: map fst v) with ([t] ++ map fst v). rewrite <- shown_app. change (spaced ((t, x) :: v)) with ((32 :: x) ++ spaced v). rewrite <- app_assoc. cbn [app].
    change (shown (ignore s) [t] ++ shown (ignore s) (map fst v)) with (toks None ++ (shown (ignore s) [t] ++ shown (ignore s) (map fst v))). eapply plus_more; [apply blank_step; now left|].
    assert (X : exists c r, getc ((n, spaced v ++ u) :: b) = Some (c, r) /\ space_or_line c).
    { destruct v as [|[t' x'] v]; [exists 10, i; split; [exact G|now right]|]. exists 32; eexists; split; [reflexivity|now left]. }
    destruct X as (c & r & X1 & X2). destruct (piece_step s n t x (spaced v ++ u) b c r P X1 X2) as (j & J & E). rewrite emit_toks in E. cbn [ignore with_inp] in E. rewrite <- toks_shown. eapply plus_more; [exact E|].
    apply (plus_getc s ((n, spaced v ++ u) :: b)); [congruence|exact IH].
Qed.
(** The same for the value of a macro, of which the first blank is not kept. *)
Lemma plus_blank s n u b ts s' : ts <> [] \/ with_inp s ((n, u) :: b) <> s' -> plus (with_inp s ((n, 32 :: u) :: b)) ts s' -> plus (with_inp s ((n, u) :: b)) ts s'.
Proof.
  intros N P. remember (with_inp s ((n, 32 :: u) :: b)) as z eqn:Z. destruct P as [z s' o E|z s1 o ts s' E Q]; subst z; (rewrite blank_step in E by now left); injection E as <- <-; [|exact Q].
  cbn [toks] in N. destruct N as [N|N]; exfalso; apply N; reflexivity.
Qed.
Lemma getc_total : forall a c r, getc a = Some (c, r) -> (total r < total a)%nat.
Proof.
  induction a as [|[m q] a IH]; intros c r G; [discriminate|]. cbn [total fold_right snd] in *. destruct q as [|y q]; cbn [getc] in G; [apply IH in G; cbn [length]; exact G|].
  injection G as _ <-. cbn [total fold_right snd length]. lia.
Qed.
Lemma value_run s n p v u b i : getc ((n, u) :: b) = Some (10, i) -> Forall (a_piece kw) (p :: v) -> plus (with_inp s ((n, tl (spaced (p :: v)) ++ u) :: b)) (shown (ignore s) (map fst (p :: v))) (with_inp s i).
Proof.
  intros G F. pose proof (pieces_run s n u b i G (p :: v) F) as P. change (spaced (p :: v) ++ u) with (32 :: tl (spaced (p :: v)) ++ u) in P. apply plus_blank in P; [exact P|].
  right. intros E. apply (f_equal inp) in E. cbn [inp with_inp] in E. apply getc_total in G. rewrite <- E in G. cbn [total fold_right snd] in G. rewrite app_length in G. lia.
Qed.

(** ** Directives *)
Lemma sharp_step s n k c u b : Forall (fun x => PreModel.word_char x = true) k -> k <> [] -> PreModel.word_char c = false ->
  step (with_inp s ((n, 35 :: k ++ c :: u) :: b)) = directive files (with_inp s ((n, 35 :: k ++ c :: u) :: b)) k ((n, c :: u) :: b).
Proof.
  intros F N C. destruct k as [|x k]; [congruence|]. pose proof (Forall_inv F) as X. cbn beta in X. unfold PreModel.step. cbn [inp with_inp getc].
  change ((35 =? 10) || PreModel.blank 35) with false. change (is_letter 35) with false. change (isdigit 35) with false. change (35 =? 35) with true. cbn [negb].
  unfold sharp. cbn [app getc]. rewrite X. cbn [negb]. change (x :: k ++ c :: u) with ((x :: k) ++ c :: u). now rewrite take_here.
Qed.
Lemma name_chars k : a_name k -> Forall (fun x => PreModel.word_char x = true) k /\ exists x r, k = x :: r.
Proof. intros [W| ->]; [|split; [repeat constructor|eauto]]. destruct (word_chars k W) as (F & x & r & E & _). split; [exact F|eauto]. Qed.
Lemma word_char_not c : PreModel.word_char c = true -> PreModel.blank c = false /\ c <> 10 /\ c <> 33 /\ c <> 34.
Proof. unfold PreModel.word_char, is_letter, isalpha, isdigit, PreModel.blank. lia. Qed.
Lemma skip_blank n x u b : PreModel.blank x = false -> take PreModel.blank ((n, 32 :: x :: u) :: b) = ([32], (n, x :: u) :: b).
Proof. intros H. apply (take_here PreModel.blank n [32] x u b); [repeat constructor|exact H]. Qed.
Lemma no_blank n x u b : PreModel.blank x = false -> take PreModel.blank ((n, x :: u) :: b) = ([], (n, x :: u) :: b).
Proof. intros H. apply (take_here PreModel.blank n [] x u b); [constructor|exact H]. Qed.
Lemma name_read n k c u b : a_name k -> space_or_line c -> name ((n, 32 :: k ++ c :: u) :: b) = Named k c ((n, u) :: b).
Proof.
  intros K C. destruct (name_chars k K) as (F & x & r & ->). pose proof (Forall_inv F) as X. cbn beta in X. destruct (word_char_not x X) as (X1 & X2 & _ & _).
  unfold name. cbn [app]. rewrite skip_blank by exact X1. cbn [snd getc]. rewrite X. cbn [negb]. change (x :: r ++ c :: u) with ((x :: r) ++ c :: u). rewrite take_here; [reflexivity| |destruct C as [->| ->]; reflexivity].
  eapply Forall_impl; [|exact F]. intros y Y. cbn beta in Y. destruct (word_char_not y Y) as (Y1 & Y2 & _). rewrite Y1. apply N.eqb_neq in Y2. now rewrite Y2.
Qed.
Lemma piece_chars t x : a_piece kw (t, x) -> Forall (fun c => c <> 10) x /\ (exists y r, x = y :: r /\ PreModel.blank y = false) /\ forall r, x = r ++ [92] -> x = [92].
Proof.
  intros P. unfold a_piece in P. cbn [fst snd] in P. destruct Hkw as [K1 K2].
  assert (G : forall x, (Forall (fun c => PreModel.word_char c = true) x \/ Forall (fun c => num_char c = true) x) -> x <> [] -> Forall (fun c => c <> 10) x /\ (exists y r, x = y :: r /\ PreModel.blank y = false) /\ forall r, x = r ++ [92] -> x = [92]).
  { clear. intros x H N. assert (F : Forall (fun c => c <> 10 /\ PreModel.blank c = false /\ c <> 92) x).
    { destruct H as [H|H]; (eapply Forall_impl; [|exact H]); intros c C; cbn beta in C; unfold PreModel.word_char, num_char, is_letter, isalpha, isdigit, PreModel.blank in *; lia. }
    split; [eapply Forall_impl; [|exact F]; intros c C; apply C|]. split.
    - destruct x as [|y r]; [congruence|]. exists y, r. split; [reflexivity|]. apply Forall_inv in F. apply F.
    - intros r ->. apply Forall_app in F. destruct F as [_ F]. apply Forall_inv in F. cbn beta in F. lia. }
  destruct P as [x W _|k x E|t x Nu|t x (d & D1 & D2 & -> & ->)].
  - destruct (word_chars x W) as (F & y & r & E & _). apply G; [now left|congruence].
  - assert (W : word x) by (rewrite Forall_forall in K1; apply K1; eapply nth_error_In; eauto). destruct (word_chars x W) as (F & y & r & E2 & _). apply G; [now left|congruence].
  - destruct (numeral_chars t x Nu) as (F & y & r & E & _). apply G; [now right|congruence].
  - split; [constructor; [|constructor]|]; [unfold special in D1; lia|]. split.
    + exists d, []. split; [reflexivity|]. unfold special in D1. unfold PreModel.blank. lia.
    + intros r E. destruct r as [|y r]; cbn [app] in E; [exact E|]. injection E as _ E. now destruct r.
Qed.
Lemma spaced_chars v : Forall (a_piece kw) v -> Forall (fun c => c <> 10) (spaced v).
Proof. intros F. induction F as [|[t x] v P F IH]; [constructor|]. change (spaced ((t, x) :: v)) with (32 :: x ++ spaced v). constructor; [lia|]. apply Forall_app. split; [apply (piece_chars t x P)|exact IH]. Qed.
Lemma spaced_last v r : a_value kw v -> v <> [] -> spaced v <> r ++ [92].
Proof.
  intros [F L] N E. destruct (exists_last N) as (v' & [t x] & ->). specialize (L v' (t, x) eq_refl). cbn [snd] in L. apply Forall_app in F. destruct F as [_ F]. apply Forall_inv in F.
  destruct (piece_chars t x F) as (_ & (y & q & -> & _) & P). unfold spaced in E. rewrite map_app, concat_app in E. cbn [map concat snd] in E. rewrite app_nil_r in E.
  assert (X : exists z, y :: q = z ++ [92]); [|destruct X as (z & X); exact (L (P z X))].
  clear - E. assert (N : y :: q <> []) by discriminate. destruct (exists_last N) as (z & c & X). rewrite X in *. exists z. change (32 :: z ++ [c]) with ((32 :: z) ++ [c]) in E. rewrite app_assoc in E. apply app_inj_tail in E. destruct E as [_ ->]. reflexivity.
Qed.
Definition text_of (v : list piece) : option bytes := match v with [] => None | _ => Some (tl (spaced v)) end.
Definition mac (e : env) : list (bytes * option bytes) := map (fun x => (fst x, text_of (snd x))) e.
Lemma value_read n p v u b : a_value kw (p :: v) -> value ((n, tl (spaced (p :: v)) ++ 10 :: u) :: b) = Some (text_of (p :: v), (n, u) :: b).
Proof.
  intros A. assert (SL := fun r => spaced_last (p :: v) r A ltac:(discriminate)). destruct A as [F _]. destruct p as [t x]. pose proof (Forall_inv F) as P. destruct (piece_chars t x P) as (_ & (y & q & -> & Y) & _).
  assert (C : Forall (fun c => c <> 10) (tl (spaced ((t, y :: q) :: v)))) by (pose proof (spaced_chars _ F) as C; inversion C; assumption).
  unfold text_of. change (spaced ((t, y :: q) :: v)) with (32 :: y :: (q ++ spaced v)) in *. cbn [tl] in *. set (w := q ++ spaced v) in *.
  unfold value. cbn [app]. rewrite no_blank by exact Y. cbn [snd getc]. pose proof (Forall_inv C) as Y2. cbn beta in Y2. apply N.eqb_neq in Y2. rewrite Y2. cbn [lines]. change (y :: w ++ 10 :: u) with ((y :: w) ++ 10 :: u).
  rewrite take_here; [|eapply Forall_impl; [|exact C]; intros c Hc; cbn beta in *; apply N.eqb_neq in Hc; now rewrite Hc|reflexivity].
  cbn [getc app]. destruct (rev (y :: w)) as [|c r] eqn:R; [apply (f_equal (@rev N)) in R; rewrite rev_involutive in R; discriminate|].
  destruct (c =? 92) eqn:E; [|reflexivity]. exfalso. apply N.eqb_eq in E. subst c. apply (f_equal (@rev N)) in R. rewrite rev_involutive in R. cbn [rev] in R. apply (SL (32 :: rev r)). cbn [app]. now rewrite R.
Qed.
Lemma lookup_cons k q v e : lookup k (mac ((q, v) :: e)) = if same k q then Some (text_of v) else lookup k (mac e).
Proof. unfold lookup. cbn [mac map find fst snd]. destruct (same k q); reflexivity. Qed.
Lemma lookup_mac k e : (lookup k (mac e) = None <-> ~ defined k e).
Proof.
  unfold defined. induction e as [|[q v] e IH]; [split; auto; reflexivity|]. rewrite lookup_cons. cbn [map fst]. destruct (same k q) eqn:E.
  - apply same_iff in E. subst q. split; [discriminate|]. intros H. exfalso. apply H. now left.
  - rewrite IH. split; [|intros H I; apply H; now right]. intros H [I|I]; [|auto]. subst q. rewrite same_refl in E. discriminate.
Qed.
Lemma lookup_defined k e : defined k e -> exists v, lookup k (mac e) = Some v.
Proof. intros D. destruct (lookup k (mac e)) eqn:E; [eauto|]. apply lookup_mac in E. contradiction. Qed.
Lemma lookup_in k v e : NoDup (map fst e) -> In (k, v) e -> lookup k (mac e) = Some (text_of v).
Proof.
  intros N I. induction e as [|[q w] e IH]; [destruct I|]. cbn [map fst] in N. inversion N as [|? ? N1 N2]; subst. rewrite lookup_cons. destruct I as [I|I].
  - injection I as -> ->. now rewrite same_refl.
  - rewrite same_false; [auto|]. intros ->. apply N1. apply (in_map fst) in I. exact I.
Qed.
Lemma mac_without k e : filter (fun x => negb (same k (fst x))) (mac e) = mac (without k e).
Proof.
  induction e as [|[q v] e IH]; [reflexivity|]. cbn [mac map filter without fst snd]. fold (mac e). fold (without k e). rewrite IH. unfold same. destruct (list_eq_dec N.eq_dec k q); reflexivity.
Qed.
Lemma without_none k e : ~ defined k e -> without k e = e.
Proof. unfold defined. induction e as [|[q v] e IH]; intros H; [reflexivity|]. cbn [without filter fst]. fold (without k e). cbn [map fst In] in H. destruct (list_eq_dec N.eq_dec k q) as [->|_]; [tauto|]. rewrite IH; tauto. Qed.
Lemma without_nodup k e : NoDup (map fst e) -> NoDup (map fst (without k e)).
Proof.
  induction e as [|[q v] e IH]; intros H; [constructor|]. cbn [map fst] in H. inversion H as [|? ? H1 H2]; subst. cbn [without filter fst]. fold (without k e). destruct (list_eq_dec N.eq_dec k q) as [->|_]; [auto|]. cbn [map fst]. constructor; [|auto].
  intros I. apply H1. apply in_map_iff in I. destruct I as ([a w] & E & I). cbn [fst] in E. subst a. apply filter_In in I. destruct I as [I _]. apply (in_map fst) in I. exact I.
Qed.

(** ** What the directives do *)
Definition st (i : input) (m : list (bytes * option bytes)) (l k : nat) (g : bool) : pst := mkP i m l k g.
Lemma st_inp i m l k g j : st i m l k g = with_inp (st j m l k g) i.
Proof. reflexivity. Qed.
Ltac opens := rewrite st_inp with (j := []).
Lemma define_step n k v u b m l x g : a_name k ->
  step (st ((n, define_ ++ k ++ spaced v ++ 10 :: u) :: b) m l x g) =
  do_define (st ((n, define_ ++ k ++ spaced v ++ 10 :: u) :: b) m l x g) ((n, 32 :: k ++ spaced v ++ 10 :: u) :: b).
Proof. intros K. exact (sharp_step (st [] m l x g) n [100; 101; 102; 105; 110; 101] 32 (k ++ spaced v ++ 10 :: u) b ltac:(repeat constructor) ltac:(discriminate) eq_refl). Qed.
Lemma undef_step n u b m l x g : step (st ((n, undef_ ++ u) :: b) m l x g) = do_undef (st ((n, undef_ ++ u) :: b) m l x g) ((n, 32 :: u) :: b).
Proof. exact (sharp_step (st [] m l x g) n [117; 110; 100; 101; 102] 32 u b ltac:(repeat constructor) ltac:(discriminate) eq_refl). Qed.
Lemma if_step n u b m l x g : step (st ((n, if_ ++ u) :: b) m l x g) = do_if (st ((n, if_ ++ u) :: b) m l x g) ((n, 32 :: u) :: b).
Proof. exact (sharp_step (st [] m l x g) n [105; 102] 32 u b ltac:(repeat constructor) ltac:(discriminate) eq_refl). Qed.
Lemma else_step n u b m l x g : step (st ((n, else_ ++ u) :: b) m l x g) = do_else (st ((n, else_ ++ u) :: b) m l x g) ((n, 10 :: u) :: b).
Proof. exact (sharp_step (st [] m l x g) n [101; 108; 115; 101] 10 u b ltac:(repeat constructor) ltac:(discriminate) eq_refl). Qed.
Lemma endif_step n u b m l x g : step (st ((n, endif_ ++ u) :: b) m l x g) = do_endif (st ((n, endif_ ++ u) :: b) m l x g) ((n, 10 :: u) :: b).
Proof. exact (sharp_step (st [] m l x g) n [101; 110; 100; 105; 102] 10 u b ltac:(repeat constructor) ltac:(discriminate) eq_refl). Qed.
Lemma include_step n p u b m l x g : p <> [] -> ~ In 34 p ->
  step (st ((n, include_ ++ p ++ 34 :: u) :: b) m l x g) =
  match files p with None => Null | Some t => if existsb (same p) (names ((n, u) :: b)) then Null else Go (st ((Some p, t) :: (n, u) :: b) m l x g) None end.
Proof.
  intros P Q. transitivity (do_include files (st ((n, include_ ++ p ++ 34 :: u) :: b) m l x g) ((n, 32 :: 34 :: p ++ 34 :: u) :: b)).
  { exact (sharp_step (st [] m l x g) n [105; 110; 99; 108; 117; 100; 101] 32 (34 :: p ++ 34 :: u) b ltac:(repeat constructor) ltac:(discriminate) eq_refl). }
  unfold do_include. rewrite skip_blank by reflexivity. cbn [snd getc]. change (34 =? 34) with true. cbn [negb]. rewrite take_here; [|apply Forall_forall; intros c C; destruct (c =? 34) eqn:E; [apply N.eqb_eq in E; subst c; contradiction|reflexivity]|reflexivity].
  cbn [getc]. destruct p; [congruence|]. destruct (files (n0 :: p)); [|reflexivity]. destruct (existsb _ _); reflexivity.
Qed.
Lemma use_step n k u b m l x g : a_name k -> ~ In k directives ->
  step (st ((n, 35 :: k ++ 10 :: u) :: b) m l x g) =
  match lookup k m with Some (Some v) => Go (st ((None, v) :: (n, 10 :: u) :: b) m l x g) None | Some None => Go (st ((n, 10 :: u) :: b) m l x g) None | None => Null end.
Proof.
  intros K D. destruct (name_chars k K) as (F & y & r & E). pose proof (sharp_step (st [] m l x g) n k 10 u b F ltac:(congruence) eq_refl) as S. etransitivity; [exact S|]. clear S. unfold directive.
  cbn [directives In] in D. rewrite !same_false by (intros ->; tauto). cbn [macros with_inp st]. destruct (lookup k m) as [[v|]|]; reflexivity.
Qed.
Lemma condition_read n (neg : bool) k u b m l x g i : a_name k ->
  condition (st i m l x g) ((n, 32 :: (if neg then [33] else []) ++ k ++ 10 :: u) :: b) = Some (xorb neg (match lookup k m with Some _ => true | None => false end), (n, u) :: b).
Proof.
  intros K. destruct (name_chars k K) as (F & y & r & E). assert (Y : PreModel.word_char y = true) by (subst k; exact (Forall_inv F)). destruct (word_char_not y Y) as (Y1 & Y2 & Y3 & _). apply N.eqb_neq in Y2, Y3.
  unfold condition. destruct neg; cbn [app].
  - rewrite skip_blank by reflexivity. cbn [snd getc]. change (33 =? 10) with false. change (33 =? 33) with true. cbv iota. rewrite take_here by (exact F || reflexivity). reflexivity.
  - subst k. cbn [app]. rewrite skip_blank by exact Y1. cbn [snd getc]. rewrite Y2, Y3. cbv iota. change (y :: r ++ 10 :: u) with ((y :: r) ++ 10 :: u). rewrite take_here by (exact F || reflexivity). reflexivity.
Qed.

(** ** Parts that are left out *)
Lemma line_star n u b m l x g ts s' : star (st ((n, u) :: b) m l x g) ts s' -> star (st ((n, 10 :: u) :: b) m l x g) ts s'.
Proof. intros P. apply (step_star _ (st ((n, u) :: b) m l x g) None); [|exact P]. exact (blank_step (st [] m l x g) n 10 u b (or_intror eq_refl)). Qed.
Lemma piece_line n t y u b m l x g ts s' : a_piece kw (t, y) -> star (st ((n, u) :: b) m l x g) ts s' -> star (st ((n, y ++ 10 :: u) :: b) m l x g) (shown g [t] ++ ts) s'.
Proof.
  intros P S. destruct (piece_step (st [] m l x g) n t y (10 :: u) b 10 ((n, u) :: b) P eq_refl (or_intror eq_refl)) as (j & J & E). rewrite emit_toks in E. rewrite <- toks_shown. eapply step_star; [exact E|].
  apply (step_star _ (st ((n, u) :: b) m l x g) None); [|exact S]. exact (line_step (st [] m l x g) j _ J).
Qed.
Lemma bang_step n u b m l x g : step (st ((n, 33 :: u) :: b) m l x g) = Go (st ((n, u) :: b) m l x g) (if g then None else Some (TSpec 33)).
Proof. reflexivity. Qed.
Lemma space_step n u b m l x g : step (st ((n, 32 :: u) :: b) m l x g) = Go (st ((n, u) :: b) m l x g) None.
Proof. reflexivity. Qed.
Lemma text_run n v u b m l x g ts s' : Forall (a_piece kw) v -> star (st ((n, u) :: b) m l x g) ts s' ->
  match text_of v with Some t => star (st ((None, t) :: (n, 10 :: u) :: b) m l x g) (shown g (map fst v) ++ ts) s' | None => star (st ((n, 10 :: u) :: b) m l x g) (shown g (map fst v) ++ ts) s' end.
Proof.
  intros F S. destruct v as [|p v]; cbn [text_of].
  - replace (shown g (map fst (@nil piece)) ++ ts) with ts by (destruct g; reflexivity). now apply line_star.
  - apply (star_app _ _ (st ((n, u) :: b) m l x g)); [|exact S]. apply star_plus. pose proof (value_run (st [] m l x g) None p v [] ((n, 10 :: u) :: b) ((n, u) :: b) eq_refl F) as P. rewrite app_nil_r in P. exact P.
Qed.
Definition values_ok (e : env) : Prop := forall k v, In (k, v) e -> Forall (a_piece kw) v.
Lemma skip_run : forall d e n u b l x, NoDup (map fst e) -> values_ok e -> formed kw d -> harmless e d -> (x < l)%nat ->
  star (st ((n, render d ++ u) :: b) (mac e) l x true) [] (st ((n, u) :: b) (mac e) l x true).
Proof.
  fix IH 1. intros d e n u b l x N V F H L. destruct d as [|[t y] d|k v d|k d|k d|neg k yes no d|p d]; cbn [render formed harmless] in *.
  - apply star_refl.
  - destruct F as [P F]. cbn [snd]. rewrite <- !app_assoc. cbn [app]. apply (piece_line n t y _ b (mac e) l x true []); [exact P|]. now apply IH.
  - destruct F as (K & A & F). rewrite <- !app_assoc. cbn [app]. pose proof (define_step n k v (render d ++ u) b (mac e) l x true K) as T0. unfold do_define in T0. destruct v as [|p v].
    + cbn [spaced map concat app] in *. rewrite (name_read n k 10) in T0 by (exact K || now right). cbn [ignore st with_inp] in T0. apply (step_star _ _ None [] _ T0). now apply IH.
    + change (spaced (p :: v)) with (32 :: tl (spaced (p :: v))) in *. cbn [app] in *. rewrite (name_read n k 32) in T0 by (exact K || now left). cbn [ignore st with_inp] in T0. apply (step_star _ _ None [] _ T0).
      apply (star_app _ [] (st ((n, render d ++ u) :: b) (mac e) l x true) []); [|now apply IH]. apply star_plus. exact (value_run (st [] (mac e) l x true) n p v (10 :: render d ++ u) b _ eq_refl (proj1 A)).
  - destruct F as [K F]. destruct H as [H1 H2]. rewrite <- !app_assoc. cbn [app]. pose proof (undef_step n (k ++ 10 :: render d ++ u) b (mac e) l x true) as T0. unfold do_undef in T0. rewrite (name_read n k 10) in T0 by (exact K || now right).
    cbn [macros st] in T0. rewrite mac_without, without_none in T0 by exact H1. apply (step_star _ _ None [] _ T0). now apply IH.
  - destruct F as (K & D & F). destruct H as [H1 H2]. cbn [app]. rewrite <- !app_assoc. cbn [app]. pose proof (use_step n k (render d ++ u) b (mac e) l x true K D) as T0. unfold defined in H1. apply in_map_iff in H1. destruct H1 as ([k' v] & E & I). cbn [fst] in E. subst k'.
    rewrite (lookup_in k v e N I) in T0. pose proof (text_run n v (render d ++ u) b (mac e) l x true [] _ (V k v I) (IH d e n u b l x N V F H2 L)) as T. destruct (text_of v) as [w|]; apply (step_star _ _ None [] _ T0); exact T.
  - destruct F as (K & Fy & Fn & F). destruct H as (Hy & Hn & H). rewrite <- !app_assoc. pose proof (if_step n ((if neg then [33] else []) ++ k ++ [10] ++ render yes ++ match no with Some no => else_ ++ render no | None => [] end ++ endif_ ++ render d ++ u) b (mac e) l x true) as T0.
    unfold do_if in T0. cbn [ignore st] in T0. destruct (name_piece k K) as (t & P).
    assert (B : star (st ((n, render yes ++ match no with Some no => else_ ++ render no | None => [] end ++ endif_ ++ render d ++ u) :: b) (mac e) (S l) x true) [] (st ((n, u) :: b) (mac e) l x true)).
    { apply (star_app _ [] (st ((n, match no with Some no => else_ ++ render no | None => [] end ++ endif_ ++ render d ++ u) :: b) (mac e) (S l) x true) []); [apply IH; auto|].
      assert (E : star (st ((n, endif_ ++ render d ++ u) :: b) (mac e) (S l) x true) [] (st ((n, u) :: b) (mac e) l x true)).
      { pose proof (endif_step n (render d ++ u) b (mac e) (S l) x true) as Z. unfold do_endif in Z. cbn [level matched st Nat.eqb pred] in Z. replace (Nat.eqb x (S l)) with false in Z by lia. replace (Nat.eqb x l) with false in Z by lia. cbn [negb] in Z.
        apply (step_star _ _ None [] _ Z). apply line_star. now apply IH. }
      destruct no as [no|]; [|exact E]. rewrite <- app_assoc. pose proof (else_step n (render no ++ endif_ ++ render d ++ u) b (mac e) (S l) x true) as Z. unfold do_else in Z. cbn [level matched st] in Z.
      replace (Nat.eqb (S l) 0) with false in Z by lia. replace (Nat.leb (S l) x) with false in Z by lia. replace (Nat.eqb (S x) (S l)) with false in Z by lia. apply (step_star _ _ None [] _ Z). apply line_star.
      apply (star_app _ [] (st ((n, endif_ ++ render d ++ u) :: b) (mac e) (S l) x true) []); [apply IH; auto|exact E]. }
    apply (step_star _ _ None [] _ T0). apply (step_star _ _ None [] _ (space_step _ _ _ _ _ _ _)). cbn [app]. pose proof (piece_line n t k _ b (mac e) (S l) x true [] _ P B) as Q. destruct neg; cbn [app]; [|exact Q]. apply (step_star _ _ None [] _ (bang_step _ _ _ _ _ _ true)). exact Q.
  - destruct H.
Qed.

(** ** Parts that are read *)
Definition cond_holds (neg : bool) (k : bytes) (e : env) : bool := xorb neg (match lookup k (mac e) with Some _ => true | None => false end).
Lemma cond_yes (neg : bool) k e : (if neg then ~ defined k e else defined k e) -> cond_holds neg k e = true.
Proof. unfold cond_holds. destruct neg; intros H; [apply lookup_mac in H; now rewrite H|]. apply lookup_defined in H. destruct H as (v & ->). reflexivity. Qed.
Lemma cond_no (neg : bool) k e : (if neg then defined k e else ~ defined k e) -> cond_holds neg k e = false.
Proof. unfold cond_holds. destruct neg; intros H; [apply lookup_defined in H; destruct H as (v & ->); reflexivity|apply lookup_mac in H; now rewrite H]. Qed.
Variable docs : bytes -> option doc.
Hypothesis Hfiles : forall p, files p = option_map render (docs p).
Hypothesis Hformed : forall p d, docs p = Some d -> formed kw d.
Lemma names_in n t b p : existsb (same p) (names ((n, t) :: b)) = true <-> In p (names ((n, t) :: b)).
Proof. rewrite existsb_exists. split; [intros (q & I & E); apply same_iff in E; now subst|intros I; exists p; split; [exact I|apply same_refl]]. Qed.
Lemma not_in_loop n t b p : ~ In p (names ((n, t) :: b)) -> existsb (same p) (names ((n, t) :: b)) = false.
Proof. intros I. destruct (existsb _ _) eqn:E; [|reflexivity]. apply names_in in E. contradiction. Qed.
Definition runs (s : pst) (ts : list token) (r : option env) (s' : env -> pst) : Prop :=
  match r with
  | Some e1 => star s ts (s' e1) /\ NoDup (map fst e1) /\ values_ok e1
  | None => exists z, star s ts z /\ step z = Null
  end.
Lemma runs_star s t1 s1 t2 r s' : star s t1 s1 -> runs s1 t2 r s' -> runs s (t1 ++ t2) r s'.
Proof. intros P Q. destruct r as [e1|]; cbn [runs] in *; [destruct Q as (Q & R); split; [now apply (star_app _ _ s1)|exact R]|]. destruct Q as (z & Q & R). exists z. split; [now apply (star_app _ _ s1)|exact R]. Qed.
Lemma runs_step s s1 ts r s' : step s = Go s1 None -> runs s1 ts r s' -> runs s ts r s'.
Proof. intros E Q. apply (runs_star s [] s1 ts r s'); [|exact Q]. apply (step_star _ _ None [] _ E). apply star_refl. Qed.
Lemma runs_line n u b m l x g ts r s' : runs (st ((n, u) :: b) m l x g) ts r s' -> runs (st ((n, 10 :: u) :: b) m l x g) ts r s'.
Proof. intros Q. apply (runs_star _ [] (st ((n, u) :: b) m l x g)); [|exact Q]. apply line_star, star_refl. Qed.
Lemma runs_null s r s' : step s = Null -> r = None -> runs s [] r s'.
Proof. intros E ->. exists s. split; [apply star_refl|exact E]. Qed.
Lemma read_run o e d r ts : gives docs harmless o e d r ts -> forall n u b l, o = names ((n, u) :: b) -> NoDup (map fst e) -> values_ok e -> formed kw d ->
  runs (st ((n, render d ++ u) :: b) (mac e) l l false) ts r (fun e1 => st ((n, u) :: b) (mac e1) l l false).
Proof.
  intros G. induction G as [o e|o e t y d r ts G IH|o e k v d r ts D G IH|o e k v d D|o e k d r ts G IH|o e k v d r ts I G IH|o e k d D|o e neg k yes no d e1 r t1 t2 C J G1 IH1 G2 IH2|o e neg k yes no d t1 C G1 IH1
    |o e neg k yes no d e1 r t1 t2 C J G1 IH1 G2 IH2|o e neg k yes no d t1 C J G1 IH1|o e neg k yes d r t1 C J G1 IH1|o e p d d1 e1 r t1 t2 X I G1 IH1 G2 IH2|o e p d d1 t1 X I G1 IH1|o e p d I|o e p d X];
  intros n u b l O N V F; cbn [render formed] in *; rewrite <- ?app_assoc; cbn [app].
  - split; [apply star_refl|auto].
  - destruct F as [P F]. cbn [snd]. change (t :: ts) with ([t] ++ ts). apply (runs_star _ [t] (st ((n, render d ++ u) :: b) (mac e) l l false)); [|now apply IH]. pose proof (piece_line n t y (render d ++ u) b (mac e) l l false [] _ P (star_refl _)) as Q. exact Q.
  - destruct F as (K & A & F). apply (runs_step _ (st ((n, render d ++ u) :: b) (mac ((k, v) :: e)) l l false)).
    + rewrite define_step by exact K. unfold do_define. apply lookup_mac in D. destruct v as [|p v].
      * cbn [spaced map concat app]. rewrite (name_read n k 10) by (exact K || now right). cbn [ignore macros st]. rewrite D. reflexivity.
      * pose proof (value_read n p v (render d ++ u) b A) as R. change (spaced (p :: v)) with (32 :: tl (spaced (p :: v))). cbn [app]. rewrite (name_read n k 32) by (exact K || now left). cbn [ignore macros st]. rewrite D. change (32 =? 10) with false. cbv iota. rewrite R. reflexivity.
    + apply IH; auto; [cbn [map fst]; now constructor|]. intros k' v' [E|I]; [|now apply (V k')]. injection E as <- <-. apply A.
  - destruct F as (K & A & F). apply runs_null; [|reflexivity]. rewrite define_step by exact K. unfold do_define. apply lookup_defined in D. destruct D as (w & D). destruct v as [|p v].
    + cbn [spaced map concat app]. rewrite (name_read n k 10) by (exact K || now right). cbn [ignore macros st]. rewrite D. reflexivity.
    + change (spaced (p :: v)) with (32 :: tl (spaced (p :: v))). cbn [app]. rewrite (name_read n k 32) by (exact K || now left). cbn [ignore macros st]. rewrite D. reflexivity.
  - destruct F as [K F]. apply (runs_step _ (st ((n, render d ++ u) :: b) (mac (without k e)) l l false)).
    + rewrite undef_step. unfold do_undef. rewrite (name_read n k 10) by (exact K || now right). cbn [macros st]. rewrite mac_without. reflexivity.
    + apply IH; auto; [now apply without_nodup|]. intros k' v' I. apply filter_In in I. now apply (V k').
  - destruct F as (K & D & F). pose proof (use_step n k (render d ++ u) b (mac e) l l false K D) as T0. rewrite (lookup_in k v e N I) in T0. pose proof (text_run n v (render d ++ u) b (mac e) l l false [] _ (V k v I) (star_refl _)) as T.
    rewrite app_nil_r in T. apply (runs_star _ (map fst v) (st ((n, render d ++ u) :: b) (mac e) l l false)); [|now apply IH]. destruct (text_of v) as [w|]; apply (step_star _ _ None _ _ T0); exact T.
  - destruct F as (K & Dk & F). apply runs_null; [|reflexivity]. rewrite use_step by assumption. apply lookup_mac in D. now rewrite D.
  - destruct F as (K & Fy & Fn & F). pose proof (cond_yes neg k e C) as Y. unfold cond_holds in Y. pose proof (if_step n ((if neg then [33] else []) ++ k ++ 10 :: render yes ++ match no with Some no => else_ ++ render no | None => [] end ++ endif_ ++ render d ++ u) b (mac e) l l false) as T0.
    unfold do_if in T0. cbn [ignore st] in T0. rewrite condition_read in T0 by exact K. rewrite Y in T0. apply (runs_step _ _ _ _ _ T0). clear T0.
    destruct (IH1 n (match no with Some no => else_ ++ render no | None => [] end ++ endif_ ++ render d ++ u) b (S l) O N V Fy) as (R & N1 & V1). apply (runs_star _ _ _ _ _ _ R). clear R.
    assert (E : forall x g, (x = l \/ x = S l) -> runs (st ((n, endif_ ++ render d ++ u) :: b) (mac e1) (S l) x g) t2 r (fun e1 => st ((n, u) :: b) (mac e1) l l false)).
    { intros x g Hx. pose proof (endif_step n (render d ++ u) b (mac e1) (S l) x g) as Z. unfold do_endif in Z. cbn [level matched st Nat.eqb pred] in Z. apply (runs_step _ (st ((n, 10 :: render d ++ u) :: b) (mac e1) l l false)); [|apply runs_line; apply IH2; auto].
      rewrite Z. destruct Hx as [->| ->].
      - replace (Nat.eqb l (S l)) with false by lia. rewrite Nat.eqb_refl. reflexivity.
      - rewrite (Nat.eqb_refl (S l)). cbn [pred]. rewrite Nat.eqb_refl. reflexivity. }
    destruct no as [no|]; [|apply E; now right]. rewrite <- app_assoc. pose proof (else_step n (render no ++ endif_ ++ render d ++ u) b (mac e1) (S l) (S l) false) as Z. unfold do_else in Z. cbn [level matched st] in Z.
    replace (Nat.eqb (S l) 0) with false in Z by lia. rewrite Nat.leb_refl in Z. cbn [pred] in Z. apply (runs_step _ _ _ _ _ Z). apply runs_line.
    apply (runs_star _ [] (st ((n, endif_ ++ render d ++ u) :: b) (mac e1) (S l) l true)); [|apply E; now left].
    apply skip_run; auto.
  - destruct F as (K & Fy & Fn & F). pose proof (cond_yes neg k e C) as Y. unfold cond_holds in Y. pose proof (if_step n ((if neg then [33] else []) ++ k ++ 10 :: render yes ++ match no with Some no => else_ ++ render no | None => [] end ++ endif_ ++ render d ++ u) b (mac e) l l false) as T0.
    unfold do_if in T0. cbn [ignore st] in T0. rewrite condition_read in T0 by exact K. rewrite Y in T0. apply (runs_step _ _ _ _ _ T0). exact (IH1 n (match no with Some no => else_ ++ render no | None => [] end ++ endif_ ++ render d ++ u) b (S l) O N V Fy).
  - destruct F as (K & Fy & Fn & F). pose proof (cond_no neg k e C) as Y. unfold cond_holds in Y. pose proof (if_step n ((if neg then [33] else []) ++ k ++ 10 :: render yes ++ (else_ ++ render no) ++ endif_ ++ render d ++ u) b (mac e) l l false) as T0.
    unfold do_if in T0. cbn [ignore st] in T0. rewrite condition_read in T0 by exact K. rewrite Y in T0. rewrite <- !app_assoc in *. apply (runs_step _ _ _ _ _ T0). clear T0.
    apply (runs_star _ [] (st ((n, else_ ++ render no ++ endif_ ++ render d ++ u) :: b) (mac e) (S l) l true)); [apply skip_run; auto|].
    pose proof (else_step n (render no ++ endif_ ++ render d ++ u) b (mac e) (S l) l true) as Z. unfold do_else in Z. cbn [level matched st] in Z.
    replace (Nat.eqb (S l) 0) with false in Z by lia. replace (Nat.leb (S l) l) with false in Z by lia. rewrite Nat.eqb_refl in Z. apply (runs_step _ _ _ _ _ Z). clear Z. apply runs_line.
    destruct (IH1 n (endif_ ++ render d ++ u) b (S l) O N V Fn) as (R & N1 & V1). apply (runs_star _ _ _ _ _ _ R). clear R.
    pose proof (endif_step n (render d ++ u) b (mac e1) (S l) (S l) false) as Z. unfold do_endif in Z. cbn [level matched st pred] in Z. rewrite Nat.eqb_refl in Z. cbn [pred] in Z. rewrite Nat.eqb_refl in Z. change (Nat.eqb (S l) 0) with false in Z.
    apply (runs_step _ _ _ _ _ Z). apply runs_line. apply IH2; auto.
  - destruct F as (K & Fy & Fn & F). pose proof (cond_no neg k e C) as Y. unfold cond_holds in Y. pose proof (if_step n ((if neg then [33] else []) ++ k ++ 10 :: render yes ++ (else_ ++ render no) ++ endif_ ++ render d ++ u) b (mac e) l l false) as T0.
    unfold do_if in T0. cbn [ignore st] in T0. rewrite condition_read in T0 by exact K. rewrite Y in T0. rewrite <- !app_assoc in *. apply (runs_step _ _ _ _ _ T0). clear T0.
    apply (runs_star _ [] (st ((n, else_ ++ render no ++ endif_ ++ render d ++ u) :: b) (mac e) (S l) l true)); [apply skip_run; auto|].
    pose proof (else_step n (render no ++ endif_ ++ render d ++ u) b (mac e) (S l) l true) as Z. unfold do_else in Z. cbn [level matched st] in Z.
    replace (Nat.eqb (S l) 0) with false in Z by lia. replace (Nat.leb (S l) l) with false in Z by lia. rewrite Nat.eqb_refl in Z. apply (runs_step _ _ _ _ _ Z). clear Z. apply runs_line.
    exact (IH1 n (endif_ ++ render d ++ u) b (S l) O N V Fn).
  - destruct F as (K & Fy & Fn & F). pose proof (cond_no neg k e C) as Y. unfold cond_holds in Y. pose proof (if_step n ((if neg then [33] else []) ++ k ++ 10 :: render yes ++ endif_ ++ render d ++ u) b (mac e) l l false) as T0.
    unfold do_if in T0. cbn [ignore st] in T0. rewrite condition_read in T0 by exact K. rewrite Y in T0. apply (runs_step _ _ _ _ _ T0). clear T0.
    apply (runs_star _ [] (st ((n, endif_ ++ render d ++ u) :: b) (mac e) (S l) l true)); [apply skip_run; auto|].
    pose proof (endif_step n (render d ++ u) b (mac e) (S l) l true) as Z. unfold do_endif in Z. cbn [level matched st pred] in Z. replace (Nat.eqb l (S l)) with false in Z by lia. rewrite Nat.eqb_refl in Z. change (Nat.eqb (S l) 0) with false in Z.
    apply (runs_step _ _ _ _ _ Z). apply runs_line. apply IH1; auto.
  - destruct F as (P & Q & F). pose proof (include_step n p (10 :: render d ++ u) b (mac e) l l false P Q) as T0. rewrite Hfiles, X in T0. cbn [option_map] in T0. rewrite not_in_loop in T0 by (subst o; exact I). apply (runs_step _ _ _ _ _ T0). clear T0.
    destruct (IH1 (Some p) [] ((n, 10 :: render d ++ u) :: b) l) as (R & N1 & V1); auto; [subst o; reflexivity|now apply (Hformed p)|]. rewrite app_nil_r in R. apply (runs_star _ _ _ _ _ _ R). clear R.
    apply (runs_step _ (st ((n, render d ++ u) :: b) (mac e1) l l false)); [reflexivity|]. apply IH2; auto.
  - destruct F as (P & Q & F). pose proof (include_step n p (10 :: render d ++ u) b (mac e) l l false P Q) as T0. rewrite Hfiles, X in T0. cbn [option_map] in T0. rewrite not_in_loop in T0 by (subst o; exact I). apply (runs_step _ _ _ _ _ T0). clear T0.
    destruct (IH1 (Some p) [] ((n, 10 :: render d ++ u) :: b) l) as (z & R & Z); auto; [subst o; reflexivity|now apply (Hformed p)|]. rewrite app_nil_r in R. exists z. auto.
  - destruct F as (P & Q & F). apply runs_null; [|reflexivity]. rewrite include_step by assumption. subst o. apply (names_in n (10 :: render d ++ u)) in I. destruct (files p); [|reflexivity]. match goal with |- (if ?x then _ else _) = _ => replace x with true by (symmetry; exact I) end. reflexivity.
  - destruct F as (P & Q & F). apply runs_null; [|reflexivity]. rewrite include_step by assumption. rewrite Hfiles, X. reflexivity.
Qed.
End Kw.

(** The files that hold these documents. *)
Definition texts (docs : bytes -> option doc) (p : bytes) : option bytes := option_map render (docs p).
Theorem pre_says_proof : forall kw docs nm d r ts, keywords_ok kw -> (forall p d, docs p = Some d -> formed kw d) -> formed kw d ->
  gives docs harmless (match nm with Some p => [p] | None => [] end) initial d r ts ->
  exists n f, lex (texts docs) kw n (lexer nm (render d)) = (ts, match r with Some _ => Ended | None => Failed end, f) /\
    forall e1, r = Some e1 -> f = mkP [] (mac e1) 0 0 false.
Proof.
  intros kw docs nm d r ts K D F G. assert (NI : NoDup (map fst initial)) by (repeat constructor; cbn [map fst In initial]; intuition discriminate).
  assert (V : values_ok kw initial) by (intros k v [E|[E|[]]]; injection E as <- <-; constructor).
  pose proof (read_run (texts docs) kw K docs (fun p => eq_refl) D _ initial d r ts G nm [] [] 0) as R. cbn [names map concat fst] in R. rewrite !app_nil_r in R. specialize (R eq_refl NI V F).
  destruct r as [e1|].
  - destruct R as (R & _ & _). destruct (lex_star _ _ _ _ _ R) as (k & L). exists (k + 1)%nat, (mkP [] (mac e1) 0 0 false). split; [|intros e2 E; now injection E as ->]. etransitivity; [exact (L 1%nat)|]. cbn. now rewrite app_nil_r.
  - destruct R as (z & R & Z). destruct (lex_star _ _ _ _ _ R) as (k & L). exists (k + 1)%nat, z. split; [|discriminate]. etransitivity; [exact (L 1%nat)|]. cbn [PreModel.lex]. rewrite Z. now rewrite app_nil_r.
Qed.
