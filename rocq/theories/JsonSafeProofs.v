(** What reading an arbitrary text can come to, and what the limits of a policy do. *)
Require Import List Arith NArith ZArith Lia Bool SpecFloat.
Require Import ZifyBool ZifyNat ZifyN.
Require Import Verif.Base Verif.JsonNumModel Verif.JsonModel Verif.JsonSpec Verif.JsonNumProofs Verif.JsonTextProofs Verif.JsonProofs.
Import ListNotations.
Open Scope N_scope.

(** [t] is what is left of [s]. *)
Definition suffix (t s : list N) : Prop := exists pre, s = pre ++ t.
Lemma suffix_refl s : suffix s s. Proof. exists []. reflexivity. Qed.
Lemma suffix_nil s : suffix [] s. Proof. exists s. rewrite app_nil_r. reflexivity. Qed.
Lemma suffix_trans a b c : suffix a b -> suffix b c -> suffix a c.
Proof. intros [x ->] [y ->]. exists (y ++ x). rewrite app_assoc. reflexivity. Qed.
Lemma suffix_cons c t s : suffix t s -> suffix t (c :: s).
Proof. intros [x ->]. exists (c :: x). reflexivity. Qed.
Lemma suffix_tail c t s : suffix (c :: t) s -> suffix t s.
Proof. intros H. apply (suffix_trans _ (c :: t)); [apply suffix_cons, suffix_refl|exact H]. Qed.
Lemma suffix_len t s : suffix t s -> (length t <= length s)%nat.
Proof. intros [x ->]. rewrite app_length. lia. Qed.
Lemma suffix_in x t s : suffix t s -> In x t -> In x s.
Proof. intros [y ->] H. apply in_or_app. auto. Qed.
Lemma skip_suffix s : suffix (skip s) s.
Proof. induction s as [|c t IH]; cbn [skip]; [apply suffix_refl|]. destruct (is_blank c); [apply suffix_cons, IH|apply suffix_refl]. Qed.
Lemma long_run_suffix t s : suffix t s -> long_run t -> long_run s.
Proof. intros [x ->] (a & ds & b & -> & H). exists (x ++ a), ds, b. rewrite app_assoc. auto. Qed.

Section Safe.
Variable term : bool.
Definition good {A} (s : list N) (r : res (A * list N)) : Prop :=
  match r with
  | Ok (_, t) => suffix t s
  | Bad _ => True
  | Overrun => In 0 s
  | Overread => term = false
  | Arith => long_run s
  | Stuck => False
  end.
Lemma good_weaken {A} s s' (r : res (A * list N)) : suffix s s' -> good s r -> good s' r.
Proof.
  intros H. destruct r as [[a t]|e| | | |]; cbn [good]; auto.
  - intros G. exact (suffix_trans _ _ _ G H).
  - apply (suffix_in 0 s s' H).
  - apply long_run_suffix. exact H.
Qed.
Lemma good_bind {A B} s s' (r : res (A * list N)) (f : A * list N -> res (B * list N)) : suffix s s' -> good s r ->
  (forall a t, suffix t s -> r = Ok (a, t) -> good s' (f (a, t))) -> good s' (rbind r f).
Proof.
  intros Hs Hg Hf. destruct r as [[a t]|e| | | |]; cbn [rbind good] in *; auto.
  - exact (suffix_in 0 s s' Hs Hg).
  - exact (long_run_suffix s s' Hs Hg).
Qed.

(** Numbers. *)
Lemma int_part_suffix s : forall v, suffix (snd (int_part v s)) s.
Proof. induction s as [|c t IH]; intros v; cbn [int_part]; [apply suffix_refl|]. destruct (is_digit c); [apply suffix_cons, IH|apply suffix_refl]. Qed.
Lemma frac_part_suffix s : forall i v, suffix (snd (frac_part i v s)) s.
Proof. induction s as [|c t IH]; intros i v; cbn [frac_part]; [apply suffix_refl|]. destruct (is_digit c); [apply suffix_cons, IH|apply suffix_refl]. Qed.
Lemma exp_part_good s : forall ds i, Forall (fun c => 48 <= c <= 57) ds -> i < 10 ^ N.of_nat (length ds) -> good (ds ++ s) (exp_part i s).
Proof.
  induction s as [|c t IH]; intros ds i Hd Hi; cbn [exp_part].
  - apply suffix_nil.
  - destruct (is_digit c) eqn:E; [|exists ds; reflexivity]. apply is_digit_iff in E.
    assert (Hds : Forall (fun c => 48 <= c <= 57) (ds ++ [c])) by (apply Forall_app; split; [exact Hd|constructor; [exact E|constructor]]).
    assert (Hi2 : i * 10 + (c - 48) < 10 ^ N.of_nat (length (ds ++ [c]))).
    { rewrite app_length. cbn [length]. replace (N.of_nat (length ds + 1)) with (N.succ (N.of_nat (length ds))) by lia. rewrite N.pow_succ_r'.
      revert Hi. generalize (10 ^ N.of_nat (length ds)). clear - E. intros; lia. }
    replace (ds ++ c :: t) with ((ds ++ [c]) ++ t) by (rewrite <- app_assoc; reflexivity).
    destruct (N.ltb_spec (i * 10 + (c - 48)) (2 ^ 31)) as [L|L].
    + apply IH; assumption.
    + cbn [good]. assert (Hl : (10 <= length (ds ++ [c]))%nat).
      { destruct (le_lt_dec 10 (length (ds ++ [c]))) as [H|H]; [exact H|exfalso].
        assert (10 ^ N.of_nat (length (ds ++ [c])) <= 10 ^ 9) by (apply N.pow_le_mono_r; [discriminate|clear - H; lia]).
        change (2 ^ 31) with 2147483648 in L. change (10 ^ 9) with 1000000000 in H0.
        revert Hi2 L H0. generalize (10 ^ N.of_nat (length (ds ++ [c]))). clear. intros; lia. }
      exists [], (firstn 10 (ds ++ [c])), (skipn 10 (ds ++ [c]) ++ t). split; [|split].
      * cbn [app]. rewrite app_assoc, firstn_skipn. reflexivity.
      * apply firstn_length_le. exact Hl.
      * rewrite <- (firstn_skipn 10 (ds ++ [c])) in Hds. apply Forall_app in Hds. tauto.
Qed.
Lemma exponent_good v s : good s (exponent v s).
Proof.
  unfold exponent. destruct s as [|c t]; [apply suffix_nil|]. destruct ((c =? 101) || (c =? 69)); [|apply suffix_refl].
  destruct t as [|d t']; [exact I|]. destruct (((d =? 43) || (d =? 45)) && _); [apply suffix_nil|].
  assert (G : forall dir u, suffix u (c :: d :: t') ->
    good (c :: d :: t') (p <~ exp_part 0 u ;; if fst p =? 0 then Ok (v, snd p) else Ok (dmul v (power dir (fst p)), snd p))).
  { intros dir u Hu. apply (good_bind u _ _ _ Hu); [apply (exp_part_good u [] 0); [constructor|reflexivity]|].
    intros a r Hr _. cbn [fst snd]. destruct (a =? 0); exact (suffix_trans _ _ _ Hr Hu). }
  destruct (d =? 43); [apply G, suffix_cons, suffix_cons, suffix_refl|]. destruct (d =? 45); [apply G, suffix_cons, suffix_cons, suffix_refl|].
  apply G, suffix_cons, suffix_refl.
Qed.
Lemma fraction_good v s : good s (fraction v s).
Proof.
  unfold fraction. destruct s as [|c t]; [apply suffix_nil|]. destruct (c =? 46); [|apply exponent_good].
  destruct t as [|d t']; [exact I|]. pose proof (frac_part_suffix (d :: t') 1 v) as H. destruct (frac_part 1 v (d :: t')) as [w u]. cbn [snd] in H.
  destruct u as [|x u]; [apply suffix_nil|]. apply (good_weaken (x :: u)); [apply suffix_cons, H|apply exponent_good].
Qed.
Lemma digit_process_good c t : good (c :: t) (digit_process (c :: t)).
Proof.
  unfold digit_process. destruct (negb (is_digit c)); [exact I|]. destruct (c =? 48).
  - destruct t as [|d t']; [apply suffix_nil|]. destruct (is_digit d); [exact I|].
    apply (good_weaken (d :: t')); [apply suffix_cons, suffix_refl|apply fraction_good].
  - pose proof (int_part_suffix (c :: t) (z2d 0)) as H. destruct (int_part (z2d 0) (c :: t)) as [w u]. cbn [snd] in H.
    destruct u as [|x u]; [apply suffix_nil|]. apply (good_weaken (x :: u)); [exact H|apply fraction_good].
Qed.
Lemma parse_digit_good c t : good (c :: t) (parse_digit (c :: t)).
Proof.
  unfold parse_digit. destruct (c =? 45); [|apply digit_process_good]. destruct t as [|d t']; [exact I|].
  apply (good_bind (d :: t') _ _ _ (suffix_cons _ _ _ (suffix_refl _)) (digit_process_good d t')). intros a r Hr _. apply suffix_cons. exact Hr.
Qed.

(** Strings. *)
Lemma scan_parts s : forall flag a b, scan flag s = Some (a, b) -> s = a ++ 34 :: b.
Proof.
  induction s as [|c t IH]; intros flag a b; cbn [scan]; [discriminate|].
  destruct (negb flag && (c =? 92)).
  - destruct (scan true t) as [[x y]|] eqn:E; cbn [obind fst snd]; [|discriminate]. intros H. injection H as <- <-. rewrite (IH _ _ _ E) at 1. reflexivity.
  - destruct ((c =? 34) && negb flag) eqn:Ec.
    + intros H. injection H as <- <-. assert (c = 34) by lia. subst. reflexivity.
    + destruct (scan false t) as [[x y]|] eqn:E; cbn [obind fst snd]; [|discriminate]. intros H. injection H as <- <-. rewrite (IH _ _ _ E) at 1. reflexivity.
Qed.
Lemma utf8_len u : (length (utf8 u) <= 4)%nat.
Proof. unfold utf8. destruct (u <=? 127); [cbn [length]; lia|]. destruct (u <=? 2047); [cbn [length]; lia|]. destruct (u <=? 65535); cbn [length]; lia. Qed.
Lemma escape_nz e x : escape e = Some x -> x <> 0.
Proof.
  unfold escape. repeat match goal with |- context[if ?b then _ else _] => destruct b end; intros H; try discriminate; injection H as <-; discriminate.
Qed.
Lemma get_char_size hex s c h r : get_char hex s = Some (c, h, r) ->
  suffix r s /\ (length r < length s)%nat /\ (~ In 0 s -> (length (if (c =? 0)%N then utf8 h else [c]) + length r <= length s)%nat).
Proof.
  unfold get_char. destruct s as [|c0 t]; [discriminate|]. destruct (c0 =? 92) eqn:E.
  - destruct t as [|e t']; [discriminate|]. destruct (escape e) as [x|] eqn:Ex.
    + intros H. injection H as <- <- <-. split; [apply suffix_cons, suffix_cons, suffix_refl|]. split; [cbn [length]; lia|]. intros _.
      pose proof (escape_nz _ _ Ex). destruct (N.eqb_spec x 0); [congruence|]. cbn [length]. lia.
    + destruct (e =? 117); [|discriminate]. destruct t' as [|a [|b [|c1 [|d r']]]]; try discriminate. intros H.
      assert (r' = r /\ c = 0) as [<- ->] by (split; congruence). clear H.
      split; [do 6 apply suffix_cons; apply suffix_refl|]. split; [cbn [length]; lia|]. intros _. cbn [N.eqb]. pose proof (utf8_len h). cbn [length]. lia.
  - intros H. injection H as <- <- <-. split; [apply suffix_cons, suffix_refl|]. split; [cbn [length]; lia|]. intros Hn.
    destruct (N.eqb_spec c0 0) as [->|]; [exfalso; apply Hn; left; reflexivity|]. cbn [length]. lia.
Qed.
Lemma fetch_loop_good f : forall cap hex out s, (length s < f)%nat ->
  match fetch_loop f cap hex out s with
  | Ok _ | Bad _ => True
  | Overrun => ~ In 0 s -> (cap < length out + length s)%nat
  | _ => False
  end.
Proof.
  induction f as [|f IH]; intros cap hex out s Hf; [lia|]. cbn [fetch_loop]. destruct s as [|x s']; [exact I|].
  destruct (get_char hex (x :: s')) as [[[c h] r]|] eqn:E; [|exact I]. apply get_char_size in E as (Hs & Hl & Hn).
  set (o := rev (if c =? 0 then utf8 h else [c]) ++ out).
  assert (Ho : length o = (length (if (c =? 0)%N then utf8 h else [c]) + length out)%nat) by (unfold o; rewrite app_length, rev_length; reflexivity).
  destruct (Nat.ltb_spec cap (length o)) as [L|L].
  - intros H0. specialize (Hn H0). lia.
  - specialize (IH cap h o r ltac:(lia)). destruct (fetch_loop f cap h o r); try exact IH. intros H0. specialize (Hn H0).
    assert (cap < length o + length r)%nat by (apply IH; intros Hr; apply H0; exact (suffix_in 0 _ _ Hs Hr)). lia.
Qed.
Lemma parse_string_good p k s : good s (parse_string p k s).
Proof.
  unfold parse_string. destruct (scan false s) as [[raw rest]|] eqn:E; [|exact I]. apply scan_parts in E.
  pose proof (fetch_loop_good (S (length raw)) (length raw) 0 [] raw ltac:(lia)) as H. unfold fetch.
  destruct (fetch_loop (S (length raw)) (length raw) 0 [] raw) as [b|e| | | |]; cbn [rbind] in *; try (destruct H; fail); try exact I.
  - assert (suffix rest s) by (exists (raw ++ [34]); rewrite <- app_assoc; exact E).
    destruct k; [destruct (exceeds (p_key p) _)|destruct (exceeds (p_str p) _)]; first [exact I|assumption].
  - cbn [good]. destruct (in_dec N.eq_dec 0 raw) as [Hi|Hi]; [rewrite E; apply in_or_app; auto|]. specialize (H Hi). cbn [length] in H. lia.
Qed.
Lemma word_suffix w : forall s r, word w s = Some r -> suffix r s.
Proof.
  induction w as [|a w IH]; intros s r; cbn [word]; [intros H; injection H as <-; apply suffix_refl|].
  destruct s as [|c t]; [discriminate|]. destruct (lower_byte c =? a); [|discriminate]. intros H. apply suffix_cons, (IH _ _ H).
Qed.
Lemma parse_word_good s : good s (parse_word s).
Proof.
  unfold parse_word. destruct (word _ s) as [r|] eqn:E1; [exact (word_suffix _ _ _ E1)|]. clear E1.
  destruct (word _ s) as [r|] eqn:E1; [exact (word_suffix _ _ _ E1)|]. clear E1.
  destruct (word _ s) as [r|] eqn:E1; [exact (word_suffix _ _ _ E1)|exact I].
Qed.

(** Values. *)
Variable look : list (list N) -> list N -> option nat.
Variable p : policy.
Notation parse_json := (parse_json look p term). Notation parse_obj := (parse_obj look p term). Notation parse_arr := (parse_arr look p term).
Lemma parse_good f : (forall d k s, (2 * length s + 1 <= f)%nat -> good s (parse_json f d k s)) /\
  (forall d m s, (2 * length s + 2 <= f)%nat -> good s (parse_obj f d m s)) /\
  (forall d l s, s <> [] -> (2 * length s + 2 <= f)%nat -> good s (parse_arr f d l s)).
Proof.
  induction f as [|f (IHj & IHo & IHa)]; [split; [|split]; intros; lia|]. split; [|split].
  - intros d k s Hf. rewrite parse_json_S. pose proof (skip_suffix s) as Hs. pose proof (suffix_len _ _ Hs) as Hl. destruct (skip s) as [|c t]; [apply suffix_nil|].
    cbn [length] in Hl. pose proof (suffix_tail _ _ _ Hs) as Ht. destruct (c =? 123).
    { destruct t as [|x t']; [exact I|]. destruct (exceeds (p_depth p) (d + 1)); [exact I|]. apply (good_weaken (x :: t')); [exact Ht|]. apply IHo. lia. }
    destruct (c =? 91).
    { destruct t as [|x t']; [exact I|]. destruct (exceeds (p_depth p) (d + 1)); [exact I|]. apply (good_weaken (x :: t')); [exact Ht|]. apply IHa; [discriminate|lia]. }
    destruct (c =? 34).
    { destruct t as [|x t']; [exact I|]. apply (good_bind (x :: t') _ _ _ Ht (parse_string_good p k (x :: t'))). intros a r Hr _. exact (suffix_trans _ _ _ Hr Ht). }
    destruct (is_digit c || (c =? 45)).
    { apply (good_bind (c :: t) _ _ _ Hs (parse_digit_good c t)). intros a r Hr _. exact (suffix_trans _ _ _ Hr Hs). }
    apply (good_weaken (c :: t)); [exact Hs|apply parse_word_good].
  - intros d m s Hf. rewrite parse_obj_S. pose proof (skip_suffix s) as Hs. pose proof (suffix_len _ _ Hs) as Hl. destruct (skip s) as [|c t].
    { destruct term eqn:Et; [exact I|exact Et]. }
    cbn [length] in Hl. pose proof (suffix_tail _ _ _ Hs) as Ht. destruct (c =? 125); [exact (suffix_trans _ _ _ (skip_suffix t) Ht)|].
    apply (good_bind (c :: t) _ _ _ Hs); [apply IHj; cbn [length]; lia|]. intros a s1 H1 _.
    destruct a; try exact I. destruct s1 as [|x s1]; [exact I|].
    pose proof (skip_suffix (x :: s1)) as H2. pose proof (suffix_trans _ _ _ H2 H1) as H3. pose proof (suffix_len _ _ H3) as L3.
    destruct (skip (x :: s1)) as [|c1 [|y t1]]; try exact I. destruct (c1 =? 58); [|exact I].
    cbn [length] in L3. pose proof (suffix_trans _ _ _ (suffix_tail _ _ _ H3) Hs) as H4.
    apply (good_bind (y :: t1) _ _ _ H4); [apply IHj; cbn [length]; lia|]. intros v s2 H5 _.
    pose proof (suffix_trans _ _ _ (skip_suffix s2) H5) as H6. pose proof (suffix_len _ _ H6) as L6. destruct (skip s2) as [|c2 t2]; [exact I|].
    cbn [length] in L6. cbv zeta. match goal with |- good _ (if ?b then _ else _) => destruct b; [exact I|] end. pose proof (suffix_trans _ _ _ (suffix_tail _ _ _ H6) H4) as H7.
    destruct (c2 =? 44).
    + destruct t2 as [|z t2]; [exact I|]. apply (good_weaken (z :: t2)); [exact H7|]. apply IHo. lia.
    + destruct (c2 =? 125); [|exact I]. exact (suffix_trans _ _ _ (skip_suffix t2) H7).
  - intros d l s Hne Hf. rewrite parse_arr_S. destruct s as [|c t]; [congruence|].
    apply (good_bind (c :: t) _ _ _ (suffix_refl _)).
    { destruct (c =? 93); [apply suffix_refl|]. apply IHj. lia. }
    intros v s1 H1 _. destruct s1 as [|x s1]; [exact I|]. cbv zeta. match goal with |- good _ (if ?b then _ else _) => destruct b; [exact I|] end.
    pose proof (suffix_trans _ _ _ (skip_suffix (x :: s1)) H1) as H6. pose proof (suffix_len _ _ H6) as L6. destruct (skip (x :: s1)) as [|c1 t1]; [exact I|].
    cbn [length] in L6, Hf. pose proof (suffix_tail _ _ _ H6) as H7. destruct (c1 =? 44).
    + destruct t1 as [|z t1]; [exact I|]. apply (good_weaken (z :: t1)); [exact H7|]. apply IHa; [discriminate|]. cbn [length] in *. lia.
    + destruct (c1 =? 93); [|exact I]. exact (suffix_trans _ _ _ (skip_suffix t1) H7).
Qed.
Lemma decode_good s : match decode look p term s with
  | Ok _ | Bad _ => True
  | Overrun => In 0 s
  | Overread => term = false
  | Arith => long_run s
  | Stuck => False
  end.
Proof.
  unfold decode. destruct (parse_good (2 * length s + 2)) as (H & _ & _). specialize (H 0 false s ltac:(lia)).
  destruct (parse_json (2 * length s + 2) 0 false s) as [[v t]|e| | | |]; cbn [rbind good] in *; try exact H.
  destruct v; destruct t; exact I.
Qed.
End Safe.
