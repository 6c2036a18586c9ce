(** The matcher on an atom that is repeated at the end of an expression. *)
Require Import List Arith NArith ZArith Lia Bool.
Require Import ZifyBool ZifyNat ZifyN.
Require Import Verif.Base Verif.RegexpModel Verif.RegexpSpec Verif.RegexpProofs.
Import ListNotations.
Open Scope N_scope.

Definition is_text (text : list N) : Prop := Forall (fun b => b < 256) text.
Definition dl (d : bool) : list N := if d then [36] else [].
Definition dollar_res (d : bool) (text : list N) : option (list N) :=
  if d then match text with [] => Some [] | _ => None end else Some text.
Lemma dl_ok d : computes (dl d) 2 (dollar_res d).
Proof.
  intros n f text m Hf Hb Hn. destruct d; cbn [dl length] in *.
  - destruct n as [|[|n]]; [lia|lia|]. destruct Hf as [-> | ->]; reflexivity.
  - destruct n as [|n]; [lia|]. reflexivity.
Qed.

(** ** How often an atom fits *)
Fixpoint run (a : atom) (text : list N) : nat :=
  match text with t :: r => if accepts a t then S (run a r) else O | [] => O end.
Definition greedy (hi : option nat) (a : atom) (text : list N) : nat :=
  match hi with Some m => Nat.min m (run a text) | None => run a text end.
Definition rep_res (a : atom) (o : op) (d : bool) (text : list N) : option (list N) :=
  let k := greedy (snd (bounds o)) a text in
  if (fst (bounds o) <=? k)%nat then dollar_res d (skipn k text) else None.

(** ** What is needed from the matcher *)
Definition rest_ok (here : matcher) (d : bool) : Prop := forall text m, is_text text ->
  here F_none (dl d) text m = Some (dollar_res d text, m).
Definition single_ok (here : matcher) (a : atom) : Prop := forall t r m,
  one here (written a) (t :: r) m = Some (accepts a t, m).
Definition special_ok (here : matcher) (a : atom) : Prop := forall text m,
  here F_special (written a) text m = Some (match text with t :: r => if accepts a t then Some text else None | [] => None end, m).
Definition atom_ok (here : matcher) (a : atom) : Prop := forall text m, is_text text ->
  here F_none (written a) text m = Some (match text with t :: r => if accepts a t then Some r else None | [] => None end, m).

Lemma is_text_skip k text : is_text text -> is_text (skipn k text).
Proof. intros H. revert k. induction H; intros [|k]; cbn; try constructor; auto. Qed.
Lemma dollar_nil d : dollar_res d [] = Some [].
Proof. destruct d; reflexivity. Qed.

Lemma star_chars_ok here a d : rest_ok here d -> single_ok here a -> forall text n rec m, is_text text ->
  (length text < n)%nat -> (forall x, rec = Some x -> x = [] /\ text = []) ->
  exists rec', star_chars here n (written a) (dl d) text rec m = Some (skipn (run a text) text, rec', m) /\
    (forall x, rec' = Some x -> x = [] /\ skipn (run a text) text = []).
Proof.
  intros Hr Hs. induction text as [|t text IH]; intros n rec m Hb Hn Hrec; (destruct n as [|n]; [cbn in Hn; lia|]); cbn [star_chars].
  - exists rec. split; [reflexivity|]. intros x Hx. destruct (Hrec x Hx). auto.
  - rewrite Hs. cbn [obind fst snd run]. cbn [length] in Hn. inversion Hb as [|? ? Ht Hb']; subst.
    destruct (accepts a t); cbn [skipn].
    + destruct d; cbn [dl].
      * change [36] with (dl true). rewrite Hr by exact Hb'. cbn [obind fst dollar_res].
        apply IH; [exact Hb'|lia|]. intros x Hx. destruct text; cbn [ok] in Hx.
        -- injection Hx as <-. auto.
        -- destruct (Hrec x Hx). discriminate.
      * apply (IH n rec m Hb'); [lia|]. intros x Hx. destruct (Hrec x Hx). discriminate.
    + exists rec. split; [reflexivity|]. intros x Hx. destruct (Hrec x Hx). discriminate.
Qed.

Lemma single_written a : single a -> length (written a) = 1%nat.
Proof. destruct a; cbn [single written]; try tauto. unfold quote. intros ->. reflexivity. Qed.

Lemma single_of_length a : length (written a) = 1%nat -> single a.
Proof.
  destruct a as [c| |k i|i ms]; cbn [single].
  - cbn [written]. unfold quote. destruct (special c); [discriminate|reflexivity].
  - auto.
  - discriminate.
  - rewrite written_set. cbn [length]. rewrite app_length. cbn [length]. lia.
Qed.

Lemma star_ok here a d n text m : rest_ok here d -> single_ok here a -> single a -> is_text text -> (length text < n)%nat ->
  match_star here n (written a) (dl d) text m = Some (rep_res a Star d text, m).
Proof.
  intros Hr Hs Ha Hb Hn. unfold match_star, rep_res. cbn [bounds fst snd greedy Nat.leb].
  destruct text as [|t text]; [cbn [run skipn]; rewrite dollar_nil; reflexivity|].
  rewrite (single_written a Ha). cbn [Nat.ltb Nat.leb].
  destruct (star_chars_ok here a d Hr Hs (t :: text) n None m Hb Hn ltac:(discriminate)) as (rec & -> & Hrec). cbn [obind].
  set (t' := skipn (run a (t :: text)) (t :: text)) in *.
  assert (is_text t') by (apply is_text_skip; exact Hb). clearbody t'.
  destruct d; cbn [dl]; [|reflexivity]. change [36] with (dl true).
  destruct rec as [x|].
  - destruct (Hrec x eq_refl) as [-> ->]. rewrite Hr by constructor. reflexivity.
  - rewrite Hr by assumption. reflexivity.
Qed.

Lemma chars_ok here a : single_ok here a -> forall text n max count m, (length text < n)%nat ->
  (max <= 0 \/ count < max)%Z ->
  let k := greedy (if (max <=? 0)%Z then None else Some (Z.to_nat (max - count))) a text in
  chars here n max (written a) text count m = Some (skipn k text, (count + Z.of_nat k)%Z, m).
Proof.
  intros Hs. induction text as [|t text IH]; intros n max count m Hn Hm; (destruct n as [|n]; [cbn in Hn; lia|]); cbn [chars].
  - cbv zeta. destruct (max <=? 0)%Z; cbn [greedy run]; rewrite ?Nat.min_0_r; cbn [skipn one obind snd]; do 3 f_equal; lia.
  - cbv zeta. rewrite Hs. cbn [obind fst snd]. cbn [length] in Hn. destruct (accepts a t) eqn:E.
    + destruct (Z.leb_spec max 0).
      * replace (0 <? max)%Z with false by lia. cbn [andb]. rewrite IH by lia.
        replace (max <=? 0)%Z with true by lia. cbv zeta. cbn [greedy run]. rewrite E. cbn [skipn].
        do 3 f_equal. lia.
      * replace (0 <? max)%Z with true by lia. cbn [andb]. destruct (Z.leb_spec max (count + 1)).
        -- replace (max - count)%Z with 1%Z by lia. cbn [greedy run]. rewrite E. change (Z.to_nat 1) with 1%nat.
           cbn [Nat.min skipn]. do 3 f_equal.
        -- rewrite IH by lia. replace (max <=? 0)%Z with false by lia. cbv zeta. cbn [greedy run]. rewrite E.
           replace (Z.to_nat (max - count)) with (S (Z.to_nat (max - (count + 1)))) by lia. cbn [Nat.min skipn].
           do 3 f_equal. lia.
    + destruct (max <=? 0)%Z; cbn [greedy run]; rewrite E, ?Nat.min_0_r; cbn [skipn]; do 3 f_equal; lia.
Qed.

Lemma plus_single_ok here a d n text m : rest_ok here d -> single_ok here a -> single a -> is_text text -> (length text < n)%nat ->
  match_plus here n (written a) (dl d) text m = Some (rep_res a Plus d text, m).
Proof.
  intros Hr Hs Ha Hb Hn. unfold match_plus, rep_res. cbn [bounds fst snd greedy].
  rewrite (single_written a Ha). cbn [Nat.ltb Nat.leb]. pose proof (chars_ok here a Hs text n 0 0 m Hn ltac:(lia)) as C.
  cbv zeta in C. cbn [Z.leb Z.compare greedy] in C. rewrite C. cbn [obind].
  set (t' := skipn (run a text) text). assert (is_text t') by (apply is_text_skip; exact Hb). clearbody t'.
  destruct (run a text) as [|k]; [reflexivity|]. replace (0 <? 0 + Z.of_nat (S k))%Z with true by lia. cbn [Nat.leb].
  destruct t'; [rewrite dollar_nil; reflexivity|]. apply Hr. assumption.
Qed.
Lemma plus_loop_ok here a d : rest_ok here d -> atom_ok here a -> forall text n any m, is_text text -> (length text < n)%nat ->
  plus_loop here n any (written a) (dl d) text m =
  Some (if (any || (1 <=? run a text)%nat) then dollar_res d (skipn (run a text) text) else None, m).
Proof.
  intros Hr Ha. induction text as [|t text IH]; intros n any m Hb Hn; (destruct n as [|n]; [cbn in Hn; lia|]); cbn [plus_loop].
  - rewrite Ha by exact Hb. cbn [obind fst snd run skipn Nat.leb orb]. rewrite orb_false_r. destruct any; [apply Hr; constructor|reflexivity].
  - rewrite Ha by exact Hb. cbn [obind fst snd run]. cbn [length] in Hn. inversion Hb as [|? ? Ht Hb']; subst.
    destruct (accepts a t) eqn:E; cbn [skipn Nat.leb].
    + rewrite orb_true_r. destruct text as [|t' text].
      * destruct d; cbn [dl]; [|reflexivity]. change [36] with (dl true). rewrite Hr by constructor. reflexivity.
      * rewrite IH by (auto; lia). reflexivity.
    + rewrite orb_false_r. destruct any; [apply Hr; exact Hb|reflexivity].
Qed.
Lemma plus_ok here a d n text m : rest_ok here d -> atom_ok here a -> (single a -> single_ok here a) -> is_text text ->
  (length (written a) = 1%nat -> single a) -> (length text < n)%nat ->
  match_plus here n (written a) (dl d) text m = Some (rep_res a Plus d text, m).
Proof.
  intros Hr Ha Hs Hb H1 Hn. destruct (Nat.ltb_spec 1 (length (written a))) as [L|L].
  - unfold match_plus. replace (1 <? length (written a))%nat with true by lia. rewrite plus_loop_ok by auto. reflexivity.
  - pose proof (length_nonempty _ (written_nonempty a)). assert (single a) by (apply H1; lia). apply plus_single_ok; auto.
Qed.

Lemma question_ok here a d text m : rest_ok here d -> atom_ok here a -> (length (written a) = 1%nat -> special_ok here a) ->
  is_text text -> match_question here (written a) (dl d) text m = Some (rep_res a Opt d text, m).
Proof.
  intros Hr Ha Hs Hb. unfold match_question, rep_res. cbn [bounds fst snd greedy Nat.leb].
  assert (Ht : is_text (tl text)) by (destruct Hb; [constructor|assumption]).
  assert (E : skipn (Nat.min 1 (run a text)) text = match text with t :: r => if accepts a t then r else text | [] => text end).
  { destruct text as [|t r]; [reflexivity|]. cbn [run]. destruct (accepts a t); [|reflexivity]. cbn [Nat.min]. reflexivity. }
  rewrite E. destruct (Nat.ltb_spec 1 (length (written a))) as [L|L].
  - rewrite Ha by exact Hb. cbn [obind fst snd]. destruct text as [|t r]; [apply Hr; exact Hb|].
    destruct (accepts a t); apply Hr; [exact Ht|exact Hb].
  - pose proof (length_nonempty _ (written_nonempty a)). rewrite Hs by lia. cbn [obind fst snd].
    destruct text as [|t r]; [apply Hr; exact Hb|].
    destruct (accepts a t); cbn [ok tl]; apply Hr; [exact Ht|exact Hb].
Qed.

Lemma brace_ok here a d n lo hi text m : rest_ok here d -> single_ok here a -> single a -> is_text text -> (length text < n)%nat ->
  (match hi with Some h => 1 <= h | None => True end)%nat ->
  match_brace here n (Z.of_nat lo) (match hi with Some h => Z.of_nat h | None => -1 end) (written a) (dl d) text m =
  Some (let k := greedy hi a text in if (lo <=? k)%nat then dollar_res d (skipn k text) else None, m).
Proof.
  intros Hr Hs Ha Hb Hn Hh. unfold match_brace. rewrite (single_written a Ha). cbn [Nat.ltb Nat.leb].
  set (max := match hi with Some h => Z.of_nat h | None => (-1)%Z end).
  rewrite (chars_ok here a Hs text n max 0 m Hn ltac:(unfold max; destruct hi; lia)). cbn [obind].
  replace (greedy (if (max <=? 0)%Z then None else Some (Z.to_nat (max - 0))) a text) with (greedy hi a text).
  2:{ unfold max. destruct hi as [h|]; [|reflexivity]. replace (Z.of_nat h <=? 0)%Z with false by lia. do 2 f_equal. lia. }
  set (k := greedy hi a text). replace (Z.of_nat lo <=? 0 + Z.of_nat k)%Z with (lo <=? k)%nat by lia. cbv zeta.
  assert (is_text (skipn k text)) by (apply is_text_skip; exact Hb).
  destruct (lo <=? k)%nat; [|reflexivity]. destruct d; cbn [dl length Nat.eqb negb].
  - rewrite orb_true_r. apply (Hr _ m). assumption.
  - rewrite orb_false_r. destruct (skipn k text); cbn [length Nat.eqb negb]; [reflexivity|]. apply (Hr _ m). assumption.
Qed.

(** ** The operators as they are written *)
Definition digits_ok (o : op) : Prop :=
  match o with
  | Exactly n => (1 <= n <= 9)%nat
  | AtLeast n => (n <= 9)%nat
  | AtMost n => (1 <= n <= 9)%nat
  | Between n m => (1 <= m <= 9)%nat /\ (n <= m)%nat
  | _ => True
  end.
Lemma usable_digits a o : usable a o -> digits_ok o.
Proof. intros [_ H]. destruct o; cbn in *; tauto. Qed.

Ltac cases_to i n := match i with O => exfalso; lia | S ?j => destruct n as [|n]; [|cases_to j n] end.
Ltac cases n := cases_to 10%nat n.
Lemma skip_op f o d : top f -> digits_ok o ->
  (let left := op_written o ++ dl d in
   let c := get_char f left in
   match left with
   | [] => []
   | _ => if ((c =? STAR) || (c =? QUES) || (c =? PLUS))%Z then next left
          else if f_square f && (c =? SUB)%Z then next (next left)
          else if (c =? LBRACE)%Z then behind_close f LBRACE RBRACE left
          else left
   end) = dl d.
Proof.
  intros Hf Ho. destruct o as [| | |k|k|k|k j]; cbn [digits_ok] in Ho.
  - destruct Hf; subst f; destruct d; reflexivity.
  - destruct Hf; subst f; destruct d; reflexivity.
  - destruct Hf; subst f; destruct d; reflexivity.
  - cases k; try (exfalso; lia); destruct Hf; subst f; destruct d; reflexivity.
  - cases k; try (exfalso; lia); destruct Hf; subst f; destruct d; reflexivity.
  - cases k; try (exfalso; lia); destruct Hf; subst f; destruct d; reflexivity.
  - destruct Ho as [Hj Hk]. cases j; try (exfalso; lia); cases k; try (exfalso; lia); destruct Hf; subst f; destruct d; reflexivity.
Qed.
Lemma operator_skip here n f a o d text m : top f -> wf a -> digits_ok o ->
  process_or here (S n) f false false 0 (written a ++ op_written o ++ dl d) text m =
  Some (0%Z, written a ++ op_written o ++ dl d, text, m).
Proof.
  intros Hf Ha Ho. pose proof (past_atom f a (op_written o ++ dl d) Ha) as P. unfold past in P. cbn [process_or].
  rewrite andb_false_r. cbn [andb]. rewrite P. clear P. pose proof (skip_op f o d Hf Ho) as S. cbv zeta in S. rewrite S.
  destruct Hf; subst f; destruct d; reflexivity.
Qed.
Lemma operator_brace f o d : top f -> digits_ok o ->
  match o with Star | Plus | Opt => True | _ =>
    exists s part, brace_scan (length (op_written o ++ dl d)) f 0 1 false (op_written o ++ dl d) = Some (s, part, true) /\
      (2 <? part)%Z = false /\ next s = dl d /\
      match_get_limit (before (next (op_written o ++ dl d)) s) =
        Some (Z.of_nat (fst (bounds o)), match snd (bounds o) with Some h => Z.of_nat h | None => (-1)%Z end) /\
      get_char f (op_written o ++ dl d) = LBRACE
  end.
Proof.
  intros Hf Ho. assert (exists s, s = 125 :: dl d) as (s & Es) by eauto.
  destruct o as [| | |k|k|k|k j]; cbn [digits_ok] in Ho; auto; exists s;
    [exists 1%Z|exists 2%Z|exists 2%Z|exists 2%Z]; subst s.
  - cases k; try (exfalso; lia); destruct Hf; subst f; destruct d; repeat split.
  - cases k; try (exfalso; lia); destruct Hf; subst f; destruct d; repeat split.
  - cases k; try (exfalso; lia); destruct Hf; subst f; destruct d; repeat split.
  - destruct Ho as [Hj Hk]. cases j; try (exfalso; lia); cases k; try (exfalso; lia); destruct Hf; subst f; destruct d; repeat split.
Qed.

(** The matcher at a repeated atom. *)
Lemma rep_step here n f a o d text m : top f -> usable a o -> rest_ok here d -> atom_ok here a ->
  (single a -> single_ok here a) -> (length (written a) = 1%nat -> a <> Any -> special_ok here a) -> is_text text ->
  (length text < n)%nat ->
  here_step here n f (written a ++ op_written o ++ dl d) text m = Some (rep_res a o d text, m).
Proof.
  intros Hf Hu Hr Hat Hs Hsp Hb Hn. pose proof (usable_digits _ _ Hu) as Hd. destruct Hu as [Ha Hu].
  destruct n as [|n]; [lia|].
  set (w := op_written o ++ dl d) in *.
  assert (Fs : f_special f = false) by (destruct Hf; subst; reflexivity).
  assert (Fo : f_or f = false) by (destruct Hf; subst; reflexivity).
  pose proof (operator_skip here n f a o d text m Hf Ha Hd) as OS. fold w in OS.
  pose proof (operand_atom f a w Ha) as O.
  pose proof (single_of_length a) as H1.
  assert (Rep : repeated here (S n) f (written a) w text m = Some (Some (rep_res a o d text, m))).
  { unfold repeated. destruct w as [|b r] eqn:Ew; [unfold w in Ew; destruct o; discriminate|]. rewrite <- Ew. subst w.
    destruct o as [| | |k|k|k|k j].
    - cbn [op_written app]. rewrite get_plain by reflexivity. change (unescaped (f_square f) 42) with STAR.
      cbn [Z.eqb STAR Pos.eqb]. rewrite next_plain by reflexivity. rewrite star_ok; auto.
    - cbn [op_written app]. rewrite get_plain by reflexivity. change (unescaped (f_square f) 43) with PLUS.
      cbn [Z.eqb STAR PLUS Pos.eqb]. rewrite next_plain by reflexivity. rewrite plus_ok; auto.
    - cbn [op_written app]. rewrite get_plain by reflexivity. change (unescaped (f_square f) 63) with QUES.
      cbn [Z.eqb STAR PLUS QUES Pos.eqb]. rewrite next_plain by reflexivity. rewrite question_ok; auto.
    - destruct (operator_brace f (Exactly k) d Hf Hd) as (s & part & B1 & B2 & B3 & B4 & B5).
      rewrite B5, B1, B2. cbn [Z.eqb LBRACE STAR PLUS QUES Pos.eqb negb orb]. rewrite B4, B3. cbn [obind bounds fst snd].
      cbn [digits_ok] in Hd. rewrite Z.ltb_irrefl, andb_false_r. rewrite (brace_ok here a d (S n) k (Some k)); auto; try tauto; lia.
    - destruct (operator_brace f (AtLeast k) d Hf Hd) as (s & part & B1 & B2 & B3 & B4 & B5).
      rewrite B5, B1, B2. cbn [Z.eqb LBRACE STAR PLUS QUES Pos.eqb negb orb]. rewrite B4, B3. cbn [obind bounds fst snd].
      cbn [Z.ltb Z.compare andb]. rewrite (brace_ok here a d (S n) k None); auto; tauto.
    - destruct (operator_brace f (AtMost k) d Hf Hd) as (s & part & B1 & B2 & B3 & B4 & B5).
      rewrite B5, B1, B2. cbn [Z.eqb LBRACE STAR PLUS QUES Pos.eqb negb orb]. rewrite B4, B3. cbn [obind bounds fst snd].
      cbn [digits_ok] in Hd. replace (Z.of_nat k <? Z.of_nat 0)%Z with false by lia. rewrite andb_false_r.
      rewrite (brace_ok here a d (S n) 0 (Some k)); auto; try tauto; lia.
    - destruct (operator_brace f (Between k j) d Hf Hd) as (s & part & B1 & B2 & B3 & B4 & B5).
      rewrite B5, B1, B2. cbn [Z.eqb LBRACE STAR PLUS QUES Pos.eqb negb orb]. rewrite B4, B3. cbn [obind bounds fst snd].
      cbn [digits_ok] in Hd. replace (Z.of_nat j <? Z.of_nat k)%Z with false by lia. rewrite andb_false_r.
      rewrite (brace_ok here a d (S n) k (Some j)); auto; try tauto; lia. }
  unfold here_step. destruct (written a ++ w) as [|b r] eqn:E; [pose proof (written_nonempty a); destruct (written a); [congruence|discriminate]|].
  rewrite <- E in *. clear E. rewrite Fs, Fo, OS. cbn [obind Z.ltb Z.compare]. rewrite O, before_app, Rep. cbn [obind].
  pose proof (get_bounds f a w Ha) as G.
  replace (((get_char f (written a ++ w) =? LPAR) || (get_char f (written a ++ w) =? LSQUAR))%Z && (length (written a ++ w) - length w =? 2)%nat) with false; [reflexivity|].
  symmetry. destruct a as [c| |k i|i ms].
  - destruct G as [-> G]. replace ((Z.of_N c =? LPAR) || (Z.of_N c =? LSQUAR))%Z with false by (unfold LPAR, LSQUAR; lia). reflexivity.
  - rewrite G. reflexivity.
  - rewrite G. destruct k, i; reflexivity.
  - rewrite app_length. destruct Ha as [Hne Hms].
    assert (3 <= length (written (Set_of i ms)))%nat.
    { rewrite written_set. cbn [length]. rewrite app_length. unfold inside_text. rewrite app_length. cbn [length].
      destruct ms as [|x ms]; [congruence|]. cbn [map concat]. rewrite app_length.
      pose proof (length_nonempty _ (mwritten_nonempty x)). lia. }
    replace (length (written (Set_of i ms)) + length w - length w =? 2)%nat with false by lia. apply andb_false_r.
Qed.

(** ** The real matcher *)
Lemma special_char n a : single a -> wf a -> forall text m,
  match_here (S n) F_special (written a) text m =
  Some (match text with
        | t :: r => if (match a with Any => 170 | Lit c => c | _ => 0 end) =? t then Some text else None
        | [] => None end, m).
Proof.
  intros Hs Ha text m. cbn [match_here]. destruct a as [c| |k i|i ms]; cbn [single] in Hs; try tauto; cbn [wf] in Ha.
  - cbn [written]. unfold quote. rewrite Hs. unfold here_step. pose proof (get_quote F_special c [] Ha) as G.
    unfold quote in G. rewrite Hs in G. cbn [app] in G. rewrite G. cbn [f_special F_special]. unfold simple.
    replace (Z.of_N c =? LSQUAR)%Z with false by (unfold LSQUAR; lia).
    replace (Z.of_N c =? LPAR)%Z with false by (unfold LPAR; lia).
    destruct text as [|t r]; [reflexivity|]. replace (Z.of_N c =? Z.of_N t)%Z with (c =? t) by lia.
    cbn [f_special]. destruct (c =? t); reflexivity.
  - cbn [written]. unfold here_step. change (get_char F_special [46]) with DOT. cbn [f_special F_special]. unfold simple.
    change (DOT =? LSQUAR)%Z with false. change (DOT =? LPAR)%Z with false. cbv iota.
    destruct text as [|t r]; [reflexivity|]. replace (DOT =? Z.of_N t)%Z with (170 =? t) by (unfold DOT; lia).
    cbn [f_special]. destruct (170 =? t); reflexivity.
Qed.
Lemma match_single n a : single a -> wf a -> single_ok (match_here (S n)) a.
Proof.
  intros Hs Ha t r m. unfold one. rewrite special_char by auto. cbn [obind fst snd].
  destruct a as [c| |k i|i ms]; cbn [single] in Hs; try tauto; cbn [accepts wf] in *.
  - rewrite (N.eqb_sym t c). destruct (N.eqb_spec c t); [reflexivity|]. cbn [ok]. rewrite special_char by auto. cbn [obind fst snd].
    replace (c =? 170) with false by lia. reflexivity.
  - destruct (170 =? t); [reflexivity|]. cbn [ok]. rewrite special_char by auto. reflexivity.
Qed.
Lemma match_special n a : single a -> wf a -> a <> Any -> special_ok (match_here (S n)) a.
Proof.
  intros Hs Ha Hne text m. rewrite special_char by auto. destruct a as [c| |k i|i ms]; cbn [single] in Hs; try tauto; try congruence.
  destruct text as [|t r]; [reflexivity|]. cbn [accepts]. rewrite N.eqb_sym. reflexivity.
Qed.
Lemma match_atom n a : wf a -> (length (written a) + 2 < n)%nat -> atom_ok (match_here n) a.
Proof.
  intros Ha Hn text m Hb. destruct n as [|n]; [lia|]. cbn [match_here].
  pose proof (atom_step (match_here n) n F_none a [] text m ltac:(left; reflexivity) Ha ltac:(left; reflexivity) (match_members n ltac:(lia)) Hb ltac:(lia)) as S.
  rewrite app_nil_r in S. rewrite S. destruct text as [|t r]; [reflexivity|]. destruct (accepts a t); [|reflexivity].
  destruct n as [|n]; [lia|]. apply here_nil.
Qed.

(** A repeated atom at the end of an expression. *)
Lemma rep_ok a o d : usable a o -> computes (written a ++ op_written o ++ dl d) 4 (rep_res a o d).
Proof.
  intros Hu n f text m Hf Hb Hn. rewrite !app_length in Hn. pose proof (length_nonempty _ (written_nonempty a)).
  assert (1 <= length (op_written o))%nat by (destruct o; cbn; lia).
  destruct n as [|n]; [lia|]. cbn [match_here]. assert (wf a) by apply Hu.
  apply rep_step; auto.
  - (* more fuel does no harm to the end of the expression, which is as short as can be *)
    intros text' m' Hb'. destruct d; cbn [dl].
    + destruct n as [|[|n]]; [lia|lia|]. reflexivity.
    + destruct n as [|n]; [lia|]. reflexivity.
  - apply match_atom; [assumption|lia].
  - intros Hs. destruct n as [|n]; [lia|]. apply match_single; auto.
  - intros L1 Hne. destruct n as [|n]; [lia|]. apply match_special; auto. apply single_of_length; exact L1.
  - lia.
Qed.
