Require Import List Arith NArith ZArith Lia Bool SpecFloat.
Require Import ZifyBool ZifyNat ZifyN.
Require Import Verif.Base Verif.JsonNumModel Verif.JsonNumProofs Verif.JsonModel Verif.JsonSpec Verif.JsonTextProofs Verif.JsonProofs.
Import ListNotations.
Open Scope N_scope.

(** ** Induction over values *)
Section Ind.
Variable P : json -> Prop.
Hypothesis Hnone : P JNone. Hypothesis Htrue : P JTrue. Hypothesis Hfalse : P JFalse. Hypothesis Hnull : P JNull.
Hypothesis Hstr : forall s, P (JStr s). Hypothesis Hnum : forall d, P (JNum d).
Hypothesis Hobj : forall m, Forall (fun p => P (snd p)) m -> P (JObj m).
Hypothesis Harr : forall l, Forall P l -> P (JArr l).
Fixpoint json_induction (j : json) : P j :=
  match j with
  | JNone => Hnone | JTrue => Htrue | JFalse => Hfalse | JNull => Hnull | JStr s => Hstr s | JNum d => Hnum d
  | JObj m => Hobj m ((fix go m := match m return Forall (fun p => P (snd p)) m with
                                   | [] => Forall_nil _ | p :: t => Forall_cons p (json_induction (snd p)) (go t) end) m)
  | JArr l => Harr l ((fix go l := match l return Forall P l with [] => Forall_nil _ | v :: t => Forall_cons v (json_induction v) (go t) end) l)
  end.
End Ind.

(** ** Decimal numbers *)
Lemma horner_app a x y : horner a (x ++ y) = horner (horner a x) y.
Proof. apply fold_left_app. Qed.
Lemma dec_loop_ok f : forall n acc, n < 2 ^ N.of_nat f -> exists ds, dec_loop (S f) n acc = ds ++ acc /\ nat_text n ds.
Proof.
  induction f as [|f IH]; intros n acc Hn.
  - change (2 ^ N.of_nat 0) with 1 in Hn. exists [48]. assert (n = 0) by lia. subst n. split; [reflexivity|].
    split; [|split; [reflexivity|reflexivity]]. split; [discriminate|]. constructor; [lia|constructor].
  - cbn [dec_loop]. destruct (N.ltb_spec n 10) as [H|H].
    + exists [48 + n]. split; [reflexivity|]. split; [|split].
      * split; [discriminate|]. constructor; [lia|constructor].
      * unfold dec_value. cbn [fold_left]. lia.
      * cbn [hd]. intros E. f_equal. exact E.
    + rewrite Nat2N.inj_succ, N.pow_succ_r' in Hn.
      destruct (IH (n / 10) ((48 + n mod 10) :: acc)) as (ds & E & (Hne & Hd) & Hv & Hz).
      { apply N.div_lt_upper_bound; [lia|]. generalize dependent (2 ^ N.of_nat f). intros. lia. }
      cbn [dec_loop] in E. rewrite E. exists (ds ++ [48 + n mod 10]). split; [rewrite <- app_assoc; reflexivity|]. split; [|split].
      * split; [destruct ds; discriminate|]. apply Forall_app. split; [exact Hd|]. constructor; [|constructor]. pose proof (N.mod_lt n 10). lia.
      * unfold dec_value. rewrite fold_left_app. change (fold_left (fun a c => 10 * a + (c - 48)) ds 0) with (dec_value ds). rewrite Hv. cbn [fold_left].
        pose proof (N.div_mod n 10). lia.
      * destruct ds as [|c t]; [congruence|]. cbn [hd app]. intros E'. specialize (Hz E'). rewrite Hz in Hv. change (dec_value [48]) with 0 in Hv.
        exfalso. symmetry in Hv. apply N.div_small_iff in Hv; lia.
Qed.
Lemma size_nat_size n : N.of_nat (N.size_nat n) = N.size n.
Proof.
  destruct n as [|p]; [reflexivity|]. cbn [N.size_nat N.size]. induction p as [p IH|p IH|]; cbn [Pos.size_nat Pos.size]; [| |reflexivity];
    rewrite Nat2N.inj_succ, IH; reflexivity.
Qed.
Lemma dec_ok n : nat_text n (dec n).
Proof.
  unfold dec. destruct (dec_loop_ok (N.size_nat n) n []) as (ds & E & H); [rewrite size_nat_size; apply N.size_gt|].
  rewrite E, app_nil_r. exact H.
Qed.
Lemma print_int_ok z : int_text z (print_int z).
Proof.
  unfold print_int. destruct (Z.ltb_spec z 0) as [H|H]; [right|left]; (split; [exact H|]); [|apply dec_ok]. eexists. split; [reflexivity|apply dec_ok].
Qed.
(** A number below [10^k] has at most [k] digits. *)
Lemma dec_loop_len f : forall n acc k, n < 10 ^ N.of_nat (S k) -> (length (dec_loop f n acc) <= S k + length acc)%nat.
Proof.
  induction f as [|f IH]; intros n acc k Hn; cbn [dec_loop]; [lia|]. destruct (N.ltb_spec n 10) as [H|H]; [cbn [length]; lia|].
  destruct k as [|k]; [change (10 ^ N.of_nat 1) with 10 in Hn; lia|].
  specialize (IH (n / 10) ((48 + n mod 10) :: acc) k). cbn [length] in IH. rewrite <- plus_n_Sm in IH. cbn [Nat.add] in *. apply IH.
  apply N.div_lt_upper_bound; [lia|]. rewrite (Nat2N.inj_succ (S k)), N.pow_succ_r' in Hn. exact Hn.
Qed.
Lemma dec_len n k : n < 10 ^ N.of_nat (S k) -> (length (dec n) <= S k)%nat.
Proof. intros H. unfold dec. pose proof (dec_loop_len (S (N.size_nat n)) n [] k H) as L. cbn [length] in L. lia. Qed.

Lemma round_div_le n d b : d <> 0 -> n <= b * d -> round_div n d <= b.
Proof.
  intros Hd H. unfold round_div. pose proof (N.div_mod n d Hd) as E. pose proof (N.mod_lt n d Hd) as L.
  assert (Hq : n / d <= b) by (apply N.div_le_upper_bound; lia). destruct (N.eq_dec (n / d) b) as [Eb|Nb].
  - assert (n mod d = 0) by (rewrite Eb in E; nia). rewrite H0. replace (2 * 0 <? d) with true by lia. lia.
  - destruct (2 * (n mod d) <? d), (d <? 2 * (n mod d)), (N.even (n / d)); lia.
Qed.
(** The text of a number is short. *)
Lemma print_num_len d t : print_num d = Some t -> (length t <= 60)%nat.
Proof.
  unfold print_num. destruct (to_s64 d) as [z|] eqn:E; [|discriminate]. cbn [obind].
  assert (Hz : (Z.abs z <= 2 ^ 63 /\ match d with S754_finite s m e => (if 0 <=? e then Z.pos m * 2 ^ e else Z.pos m / 2 ^ (- e)) <= 2 ^ 63 | _ => True end)%Z).
  { unfold to_s64 in E. destruct d as [s|s| |s m e]; try discriminate; [injection E as <-; split; [vm_compute; congruence|exact I]|].
    revert E. generalize (if (0 <=? e)%Z then (Z.pos m * 2 ^ e)%Z else (Z.pos m / 2 ^ (- e))%Z). intros a.
    destruct (Z.leb_spec (- 2 ^ 63) (cond_Zopp s a)); [|discriminate]. destruct (Z.ltb_spec (cond_Zopp s a) (2 ^ 63)); [|discriminate].
    intros E. cbn [andb] in E. injection E as <-. destruct s; cbn [cond_Zopp] in *; lia. }
  destruct Hz as [Hz Hd]. destruct (SFeqb (z2d z) d).
  - intros H. injection H as <-. unfold print_int. destruct (z <? 0)%Z; cbn [length].
    + pose proof (dec_len (Z.to_N (- z)) 19) as L. assert (Z.to_N (- z) < 10 ^ N.of_nat 20) by (change (10 ^ N.of_nat 20) with 100000000000000000000; lia). specialize (L H). lia.
    + pose proof (dec_len (Z.to_N z) 19) as L. assert (Z.to_N z < 10 ^ N.of_nat 20) by (change (10 ^ N.of_nat 20) with 100000000000000000000; lia). specialize (L H). lia.
  - destruct d as [s|s| |s m e]; try discriminate. intros H. injection H as <-. unfold print_fixed.
    set (k := if (0 <=? e)%Z then _ else _).
    assert (Hk : k <= (2 ^ 63 + 1) * 1000000).
    { subst k. destruct (Z.leb_spec 0 e) as [He|He].
      - assert (Hm : N.pos m * 2 ^ Z.to_N e <= 2 ^ 63).
        { apply N2Z.inj_le. rewrite N2Z.inj_mul, N2Z.inj_pow, Z2N.id by exact He. exact Hd. }
        revert Hm. generalize (N.pos m * 2 ^ Z.to_N e). clear. intros x Hm. change (2 ^ 63) with 9223372036854775808 in *. lia.
      - assert (Hp : (0 < 2 ^ (- e))%Z) by (apply Z.pow_pos_nonneg; lia).
        assert (Hm : N.pos m <= (2 ^ 63 + 1) * 2 ^ Z.to_N (- e)).
        { apply N2Z.inj_le. rewrite N2Z.inj_mul, N2Z.inj_pow, Z2N.id by lia. change (Z.of_N (2 ^ 63 + 1)) with (2 ^ 63 + 1)%Z.
          change (Z.of_N 2) with 2%Z. change (Z.of_N (N.pos m)) with (Z.pos m).
          pose proof (Z.div_mod (Z.pos m) (2 ^ (- e)) ltac:(lia)) as Em. pose proof (Z.mod_pos_bound (Z.pos m) (2 ^ (- e)) Hp) as Lm.
          assert (2 ^ (- e) * (Z.pos m / 2 ^ (- e)) <= 2 ^ (- e) * 2 ^ 63)%Z by (apply Z.mul_le_mono_nonneg_l; lia). lia. }
        apply round_div_le; [apply N.pow_nonzero; lia|]. revert Hm. generalize (2 ^ Z.to_N (- e)). clear. intros x Hm. change (2 ^ 63 + 1) with 9223372036854775809 in *. lia. }
    clearbody k. clear Hd E. rewrite !app_length, skipn_length. cbn [length].
    assert (L1 : (length (dec (k / 1000000)) <= 20)%nat).
    { apply dec_len. change (10 ^ N.of_nat 20) with 100000000000000000000. clear - Hk. apply N.div_lt_upper_bound; lia. }
    assert (L2 : (length (dec (1000000 + k mod 1000000)) <= 7)%nat).
    { apply dec_len. change (10 ^ N.of_nat 7) with 10000000. clear. pose proof (N.mod_lt k 1000000). lia. }
    destruct s; cbn [length]; lia.
Qed.

(** ** The block never overflows *)
Definition fits (b : buf) : Prop := 512 <= b_size b /\ N.of_nat (length (b_data b)) <= b_size b.
Definition fine (r : wres) : Prop := match r with WOk b | WFail b => fits b | WArith => True | WOver => False end.

Section Writer.
Variable limit : N.
Notation write := (write limit). Notation write_str := (write_str limit). Notation write_chars := (write_chars limit).
Notation write_content := (write_content limit).
(** The two inner loops of [write_content]. *)
Fixpoint write_members (m : list (list N * json)) (b : buf) : wres :=
  match m with
  | [] => WOk b
  | (k, v) :: t => b <! write_str k b ;; b <! write [58] b ;; b <! write_content v b ;; b <! write [44] b ;; write_members t b
  end.
Fixpoint write_elements (l : list json) (b : buf) : wres :=
  match l with
  | [] => WOk b
  | v :: t => b <! write_content v b ;; b <! write [44] b ;; write_elements t b
  end.
Lemma write_obj m b : write_content (JObj m) b =
  (b <! write [123] b ;;
   match write_members m b with WOk b' | WFail b' => write [125] (write_back (length (b_data b)) b') | r => r end).
Proof. reflexivity. Qed.
Lemma write_arr l b : write_content (JArr l) b =
  (b <! write [91] b ;; b' <! write_elements l b ;; write [93] (write_back (length (b_data b)) b')).
Proof. reflexivity. Qed.

Lemma wbind_fine r f : fine r -> (forall b, fits b -> fine (f b)) -> fine (wbind r f).
Proof. destruct r; cbn [wbind fine]; auto. Qed.
Lemma write_fine s b : (length s <= 512)%nat -> fits b -> fine (write s b).
Proof.
  intros Hs [H1 H2]. unfold JsonModel.write. destruct (N.ltb_spec (b_size b) (N.of_nat (length (b_data b) + length s))) as [L|L].
  - destruct (limit <? 2 * b_size b); [split; assumption|]. destruct (N.ltb_spec (2 * b_size b) (N.of_nat (length (b_data b) + length s))); [lia|].
    split; cbn [b_size b_data]; [lia|rewrite app_length; lia].
  - destruct (N.ltb_spec (b_size b) (N.of_nat (length (b_data b) + length s))); [lia|]. split; cbn [b_size b_data]; [lia|rewrite app_length; lia].
Qed.
Lemma back_fits n b : fits b -> fits (write_back n b).
Proof.
  intros [H1 H2]. unfold write_back. destruct (n <? length (b_data b))%nat; [|split; assumption]. split; [exact H1|]. cbn [b_size b_data].
  destruct (b_data b) as [|x t] eqn:E; [exact H2|]. rewrite (app_removelast_last x (l := x :: t)) in H2 by discriminate. rewrite app_length in H2. lia.
Qed.
Lemma chars_fine s : forall b, fits b -> fine (write_chars s b).
Proof.
  induction s as [|c t IH]; intros b Hb; cbn [JsonModel.write_chars]; [exact Hb|]. apply wbind_fine.
  - destruct ((c =? 34) || (c =? 92)); [apply write_fine; [cbn [length]; lia|exact Hb]|exact Hb].
  - intros b1 H1. apply wbind_fine; [apply write_fine; [cbn [length]; lia|exact H1]|]. exact IH.
Qed.
Lemma str_fine s b : fits b -> fine (write_str s b).
Proof.
  intros Hb. unfold JsonModel.write_str. apply wbind_fine; [apply write_fine; [cbn [length]; lia|exact Hb]|]. intros b1 H1.
  apply wbind_fine; [apply chars_fine; exact H1|]. intros b2 H2. apply write_fine; [cbn [length]; lia|exact H2].
Qed.
Lemma content_fine j : forall b, fits b -> fine (write_content j b).
Proof.
  induction j as [| | | |s|d|m IH|l IH] using json_induction; intros b Hb; try (apply write_fine; [cbn [length]; lia|exact Hb]).
  - exact Hb.
  - apply str_fine. exact Hb.
  - cbn [JsonModel.write_content]. destruct (print_num d) as [t|] eqn:E; [|exact I]. apply write_fine; [|exact Hb]. pose proof (print_num_len d t E). lia.
  - rewrite write_obj. apply wbind_fine; [apply write_fine; [cbn [length]; lia|exact Hb]|]. intros b1 H1.
    assert (Hm : forall b, fits b -> fine (write_members m b)).
    { clear - IH. induction IH as [|[k v] t Hv Ht IHt]; intros b Hb; cbn [write_members]; [exact Hb|].
      apply wbind_fine; [apply str_fine; exact Hb|]. intros b1 H1. apply wbind_fine; [apply write_fine; [cbn [length]; lia|exact H1]|]. intros b2 H2.
      apply wbind_fine; [apply Hv; exact H2|]. intros b3 H3. apply wbind_fine; [apply write_fine; [cbn [length]; lia|exact H3]|]. exact IHt. }
    specialize (Hm b1 H1). destruct (write_members m b1) as [b2|b2| |]; cbn [fine] in *; try exact Hm; try (destruct Hm; fail).
    + apply write_fine; [cbn [length]; lia|]. apply back_fits. exact Hm.
    + apply write_fine; [cbn [length]; lia|]. apply back_fits. exact Hm.
  - rewrite write_arr. apply wbind_fine; [apply write_fine; [cbn [length]; lia|exact Hb]|]. intros b1 H1. apply wbind_fine.
    { revert b1 H1. clear - IH. induction IH as [|v t Hv Ht IHt]; intros b Hb; cbn [write_elements]; [exact Hb|].
      apply wbind_fine; [apply Hv; exact Hb|]. intros b1 H1. apply wbind_fine; [apply write_fine; [cbn [length]; lia|exact H1]|]. exact IHt. }
    intros b2 H2. apply write_fine; [cbn [length]; lia|]. apply back_fits. exact H2.
Qed.
Lemma encode_in_bounds j : encode limit j <> Overrun.
Proof.
  unfold encode. pose proof (content_fine j (mkB 512 [])) as H. destruct (write_content j (mkB 512 [])); try discriminate.
  destruct H. split; [vm_compute; congruence|vm_compute; congruence].
Qed.

(** ** What is written *)
Definition quoted (s : list N) : list N := flat_map (fun c => if (c =? 34) || (c =? 92) then [92; c] else [c]) s.
Fixpoint text (j : json) : list N :=
  match j with
  | JObj m => 123 :: removelast (flat_map (fun p => 34 :: quoted (fst p) ++ 34 :: 58 :: text (snd p) ++ [44]) m) ++ [125]
  | JArr l => 91 :: removelast (flat_map (fun v => text v ++ [44]) l) ++ [93]
  | JStr s => 34 :: quoted s ++ [34]
  | JNum d => match print_num d with Some t => t | None => [] end
  | JTrue => [116; 114; 117; 101]
  | JFalse => [102; 97; 108; 115; 101]
  | JNull => [110; 117; 108; 108]
  | JNone => []
  end.
(** [r] appends [t] to the block. *)
Definition appends (r : buf -> wres) (t : list N) : Prop := forall b, fits b -> 2 * N.of_nat (length (b_data b) + length t) <= limit ->
  exists sz, r b = WOk (mkB sz (b_data b ++ t)) /\ fits (mkB sz (b_data b ++ t)).
Lemma write_appends s : (length s <= 512)%nat -> appends (write s) s.
Proof.
  intros Hs b [H1 H2] Hl. unfold JsonModel.write. destruct (N.ltb_spec (b_size b) (N.of_nat (length (b_data b) + length s))) as [L|L].
  - destruct (N.ltb_spec limit (2 * b_size b)); [lia|]. destruct (N.ltb_spec (2 * b_size b) (N.of_nat (length (b_data b) + length s))); [lia|].
    eexists. split; [reflexivity|]. split; cbn [b_size b_data]; [lia|rewrite app_length; lia].
  - destruct (N.ltb_spec (b_size b) (N.of_nat (length (b_data b) + length s))); [lia|].
    eexists. split; [reflexivity|]. split; cbn [b_size b_data]; [lia|rewrite app_length; lia].
Qed.
Lemma bind_appends r f s t : appends r s -> appends f t -> appends (fun b => wbind (r b) f) (s ++ t).
Proof.
  intros Hr Hf b Hb Hl. rewrite app_length in Hl. destruct (Hr b Hb) as (sz & -> & Hb1); [lia|]. cbn [wbind].
  destruct (Hf _ Hb1) as (sz2 & -> & Hb2); [cbn [b_data]; rewrite app_length; lia|]. cbn [b_data] in *. exists sz2. rewrite app_assoc. auto.
Qed.
Lemma nothing_appends : appends WOk [].
Proof. intros b Hb _. exists (b_size b). rewrite app_nil_r. destruct b. auto. Qed.
Lemma chars_appends s : appends (write_chars s) (quoted s).
Proof.
  induction s as [|c t IH]; [exact nothing_appends|]. unfold quoted. cbn [flat_map JsonModel.write_chars]. fold (quoted t).
  destruct ((c =? 34) || (c =? 92)).
  - change ([92; c] ++ quoted t) with ([92] ++ [c] ++ quoted t).
    apply (bind_appends (write [92]) (fun b => b <! write [c] b ;; write_chars t b)); [apply write_appends; cbn [length]; lia|].
    apply (bind_appends (write [c]) (write_chars t)); [apply write_appends; cbn [length]; lia|exact IH].
  - intros b. cbn [wbind]. revert b. apply (bind_appends (write [c]) (write_chars t)); [apply write_appends; cbn [length]; lia|exact IH].
Qed.
Lemma str_appends s : appends (write_str s) (34 :: quoted s ++ [34]).
Proof.
  apply (bind_appends (write [34]) (fun b => b <! write_chars s b ;; write [34] b) [34]); [apply write_appends; cbn [length]; lia|].
  apply (bind_appends (write_chars s) (write [34])); [apply chars_appends|apply write_appends; cbn [length]; lia].
Qed.

(** Closing: the comma behind the last part is overwritten. *)
Lemma removelast_app_length {A} (x : list A) : x <> [] -> S (length (removelast x)) = length x.
Proof. intros H. destruct x as [|a x]; [congruence|]. rewrite (app_removelast_last a (l := a :: x)) at 2 by discriminate. rewrite app_length. cbn [length]. lia. Qed.
Lemma back_data b sz body : fits (mkB sz (b_data b ++ body)) ->
  write_back (length (b_data b)) (mkB sz (b_data b ++ body)) = mkB sz (b_data b ++ removelast body) /\ fits (mkB sz (b_data b ++ removelast body)).
Proof.
  intros Hf. pose proof (back_fits (length (b_data b)) _ Hf) as Hb. unfold write_back in *. cbn [b_data b_size] in *. rewrite app_length in *.
  destruct (Nat.ltb_spec (length (b_data b)) (length (b_data b) + length body)) as [L|L].
  - rewrite removelast_app in * by (destruct body; [cbn [length] in L; lia|discriminate]). auto.
  - assert (body = []) by (destruct body; [reflexivity|cbn [length] in L; lia]). subst body. auto.
Qed.

(** Values all of whose numbers have a text. *)
Inductive printable : json -> Prop :=
| pr_true : printable JTrue | pr_false : printable JFalse | pr_null : printable JNull | pr_none : printable JNone
| pr_str s : printable (JStr s)
| pr_num d t : print_num d = Some t -> printable (JNum d)
| pr_obj m : Forall (fun p => printable (snd p)) m -> printable (JObj m)
| pr_arr l : Forall printable l -> printable (JArr l).

Lemma content_appends j : printable j -> appends (write_content j) (text j).
Proof.
  induction j as [| | | |s|d|m IH|l IH] using json_induction; intros Hp;
    try match goal with |- appends (write_content ?j) _ => change (appends (write (text j)) (text j)); apply write_appends; cbn [length text]; lia end.
  - exact nothing_appends.
  - apply str_appends.
  - inversion Hp as [| | | | |d' t E| |]; subst. cbn [text]. rewrite E. intros b. cbn [JsonModel.write_content]. rewrite E. revert b.
    apply write_appends. pose proof (print_num_len d t E). lia.
  - assert (Hms : Forall (fun p => printable (snd p)) m) by (inversion Hp; assumption).
    set (body := flat_map (fun p => 34 :: quoted (fst p) ++ 34 :: 58 :: text (snd p) ++ [44]) m).
    assert (Hm : appends (write_members m) body).
    { subst body. clear Hp. induction m as [|[k v] t IHt]; [exact nothing_appends|]. cbn [flat_map write_members fst snd].
      inversion IH as [|? ? Hv Ht]; subst. inversion Hms as [|? ? Pv Pt]; subst. cbn [snd] in *.
      match goal with |- appends _ ((34 :: quoted k ++ 34 :: 58 :: text v ++ [44]) ++ ?r) =>
        replace ((34 :: quoted k ++ 34 :: 58 :: text v ++ [44]) ++ r) with ((34 :: quoted k ++ [34]) ++ [58] ++ text v ++ [44] ++ r)
          by (cbn [app]; rewrite <- !app_assoc; cbn [app]; rewrite <- !app_assoc; reflexivity) end.
      apply (bind_appends (write_str k) (fun b => b <! write [58] b ;; b <! write_content v b ;; b <! write [44] b ;; write_members t b)); [apply str_appends|].
      apply (bind_appends (write [58]) (fun b => b <! write_content v b ;; b <! write [44] b ;; write_members t b)); [apply write_appends; cbn [length]; lia|].
      apply (bind_appends (write_content v) (fun b => b <! write [44] b ;; write_members t b)); [exact (Hv Pv)|].
      apply (bind_appends (write [44]) (write_members t)); [apply write_appends; cbn [length]; lia|]. exact (IHt Ht Pt). }
    intros b Hb Hl. rewrite write_obj. cbn [text] in *. fold body in Hl |- *. cbn [length] in Hl. rewrite app_length in Hl. cbn [length] in Hl.
    destruct (write_appends [123] ltac:(cbn [length]; lia) b Hb) as (s1 & -> & H1); [cbn [length]; lia|]. cbn [wbind].
    destruct (Hm _ H1) as (s2 & E2 & H2).
    { cbn [b_data]. rewrite app_length. cbn [length]. destruct body as [|x y] eqn:Eb; [cbn [length] in *; lia|]. rewrite <- Eb in *.
      pose proof (removelast_app_length body ltac:(congruence)). lia. }
    cbn [b_data] in E2. rewrite E2. destruct (back_data _ s2 body H2) as [E3 H3]. cbn [b_data] in E3, H3 |- *. rewrite E3.
    destruct (write_appends [125] ltac:(cbn [length]; lia) _ H3) as (s4 & E4 & H4); [cbn [b_data length]; rewrite !app_length; cbn [length]; lia|].
    cbn [b_data] in E4, H4. exists s4. rewrite E4. rewrite <- !app_assoc in *. auto.
  - assert (Hls : Forall printable l) by (inversion Hp; assumption).
    set (body := flat_map (fun v => text v ++ [44]) l).
    assert (Hm : appends (write_elements l) body).
    { subst body. clear Hp. induction l as [|v t IHt]; [exact nothing_appends|]. cbn [flat_map write_elements].
      inversion IH as [|? ? Hv Ht]; subst. inversion Hls as [|? ? Pv Pt]; subst. rewrite <- app_assoc.
      apply (bind_appends (write_content v) (fun b => b <! write [44] b ;; write_elements t b)); [exact (Hv Pv)|].
      apply (bind_appends (write [44]) (write_elements t)); [apply write_appends; cbn [length]; lia|]. exact (IHt Ht Pt). }
    intros b Hb Hl. rewrite write_arr. cbn [text] in *. fold body in Hl |- *. cbn [length] in Hl. rewrite app_length in Hl. cbn [length] in Hl.
    destruct (write_appends [91] ltac:(cbn [length]; lia) b Hb) as (s1 & -> & H1); [cbn [length]; lia|]. cbn [wbind].
    destruct (Hm _ H1) as (s2 & E2 & H2).
    { cbn [b_data]. rewrite app_length. cbn [length]. destruct body as [|x y] eqn:Eb; [cbn [length] in *; lia|]. rewrite <- Eb in *.
      pose proof (removelast_app_length body ltac:(congruence)). lia. }
    cbn [b_data] in E2. rewrite E2. cbn [wbind]. destruct (back_data _ s2 body H2) as [E3 H3]. cbn [b_data] in E3, H3 |- *. rewrite E3.
    destruct (write_appends [93] ltac:(cbn [length]; lia) _ H3) as (s4 & E4 & H4); [cbn [b_data length]; rewrite !app_length; cbn [length]; lia|].
    cbn [b_data] in E4, H4. exists s4. rewrite E4. rewrite <- !app_assoc in *. auto.
Qed.
Lemma encode_text j : printable j -> 2 * N.of_nat (length (text j)) <= limit -> encode limit j = Ok (text j).
Proof.
  intros Hp Hl. unfold encode. destruct (content_appends j Hp (mkB 512 [])) as (sz & -> & _); [split; vm_compute; congruence|exact Hl|]. reflexivity.
Qed.
End Writer.

(** ** The text denotes the value *)
Lemma quoted_chars s : bytes s -> chars false s (quoted s).
Proof.
  induction 1 as [|c t Hc Ht IH]; [constructor|]. unfold quoted. cbn [flat_map]. fold (quoted t). destruct ((c =? 34) || (c =? 92)) eqn:E.
  - apply (ch_esc false c c); [|exact IH]. assert (c = 34 \/ c = 92) as [-> | ->] by lia; cbn [escapes In]; tauto.
  - apply ch_raw; [exact Hc|lia|lia|reflexivity|exact IH].
Qed.
Lemma quoted_text s : bytes s -> string_text s (34 :: quoted s ++ [34]).
Proof. intros H. exists false, (quoted s). split; [apply quoted_chars; exact H|reflexivity]. Qed.
Lemma plain_printable j : plain j -> printable j.
Proof.
  induction j as [| | | |s|d|m IH|l IH] using json_induction; intros H; try constructor; inversion H; subst.
  - econstructor. apply print_num_z2d. lia.
  - apply Forall_forall. intros p Hp. rewrite Forall_forall in IH. auto.
  - apply Forall_forall. intros p Hp. rewrite Forall_forall in IH. auto.
Qed.
Lemma ws_nil : ws []. Proof. constructor. Qed.
Lemma text_value j : plain j -> value j (text j).
Proof.
  induction j as [| | | |s|d|m IH|l IH] using json_induction; intros H; inversion H as [| | |s' Hs|z Hz|m' Hn Hk Hv|l' Hne Hv]; subst; cbn [text]; try solve [constructor].
  - apply v_str, quoted_text. assumption.
  - rewrite print_num_z2d by lia. apply v_int; [exact Hz|apply print_int_ok].
  - destruct m as [|p m]; [apply (v_obj_empty []); constructor|]. apply v_obj; [|exact Hn]. clear Hn H.
    revert p Hk Hv IH. induction m as [|q m IHm]; intros [k v] Hk Hv IH; inversion Hk; subst; inversion IH; subst; cbn [flat_map fst snd].
    + rewrite app_nil_r. match goal with |- members _ (removelast ?x ++ _) =>
        replace x with ((34 :: quoted k ++ 34 :: 58 :: text v) ++ [44]) by (cbn [app]; rewrite <- app_assoc; reflexivity) end.
      rewrite removelast_last. replace ((34 :: quoted k ++ 34 :: 58 :: text v) ++ [125]) with ([] ++ (34 :: quoted k ++ [34]) ++ [] ++ 58 :: [] ++ text v ++ [] ++ [125])
        by (cbn [app]; rewrite <- !app_assoc; reflexivity).
      apply m_last; try apply ws_nil; [apply quoted_text; assumption|]. match goal with Hx : _ -> value _ _ |- _ => apply Hx end. apply (Hv (k, v)). left. reflexivity.
    + match goal with |- members _ (removelast (_ ++ ?r) ++ _) => remember r as body eqn:Eb end.
      assert (Hb : body <> []) by (subst body; discriminate). rewrite removelast_app by exact Hb. rewrite <- app_assoc.
      replace ((34 :: quoted k ++ 34 :: 58 :: text v ++ [44]) ++ removelast body ++ [125]) with
        ([] ++ (34 :: quoted k ++ [34]) ++ [] ++ 58 :: [] ++ text v ++ [] ++ 44 :: (removelast body ++ [125]))
        by (cbn [app]; rewrite <- !app_assoc; cbn [app]; rewrite <- !app_assoc; reflexivity).
      apply m_more; try apply ws_nil; [apply quoted_text; assumption| |].
      * match goal with Hx : plain (snd (k, v)) -> _ |- _ => apply Hx end. apply (Hv (k, v)). left. reflexivity.
      * subst body. apply (IHm q); [assumption|intros p Hp; apply Hv; right; exact Hp|assumption].
  - apply v_arr. destruct l as [|v l]; [congruence|]. clear Hne H. revert v Hv IH. induction l as [|q l IHl]; intros v Hv IH; inversion IH; subst; cbn [flat_map].
    + rewrite app_nil_r, removelast_last. apply (e_last v [] (text v) []); try apply ws_nil. match goal with Hx : _ -> value _ _ |- _ => apply Hx end. apply Hv. left. reflexivity.
    + match goal with |- elements _ (removelast (_ ++ ?r) ++ _) => remember r as body eqn:Eb end.
      assert (Hb : body <> []) by (subst body; destruct (text q); discriminate). rewrite removelast_app by exact Hb. rewrite <- !app_assoc.
      change ([44] ++ removelast body ++ [93]) with ([] ++ 44 :: (removelast body ++ [93])).
      apply (e_more v [] (text v) [] (q :: l)); try apply ws_nil.
      * match goal with Hx : _ -> value v _ |- _ => apply Hx end. apply Hv. left. reflexivity.
      * subst body. apply (IHl q); [intros p Hp; apply Hv; right; exact Hp|assumption].
Qed.

Lemma round_trip_ok look term limit v : sound_look look -> plain v -> is_container v -> 2 * N.of_nat (length (text v)) <= limit ->
  exists s, encode limit v = Ok s /\ document v s /\ decode look no_policy term s = Ok v.
Proof.
  intros Hl Hp Hc Hs. exists (text v).
  assert (Hd : document v (text v)).
  { split; [exact Hc|]. exists [], (text v), []. split; [rewrite app_nil_r; reflexivity|]. split; [apply ws_nil|]. split; [apply text_value; exact Hp|apply ws_nil]. }
  split; [apply encode_text; [apply plain_printable; exact Hp|exact Hs]|]. split; [exact Hd|]. apply decode_complete; assumption.
Qed.
