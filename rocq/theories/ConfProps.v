(** What is read from a configuration file, and what is found in it. *)
Require Import List Arith NArith ZArith Bool Ascii String Lia.
Require Import ZifyBool ZifyNat ZifyN.
Require Import Verif.Base Verif.HttpModel Verif.LexModel Verif.ExprModel Verif.LexSpec Verif.LexProofs Verif.LexProps.
Require Import Verif.ConfModel Verif.ConfSpec Verif.ConfProofs Verif.ConfFind.
Import List ListNotations.
Open Scope list_scope.
Open Scope N_scope.
Local Notation bytes := LexModel.bytes.
Local Notation ascii s := (Forall (fun c => c < 128) s).

(** ** Loading *)
(** A file that is written by the rules is loaded, and the configuration is what it says: every domain, command and item, in order. *)
Theorem conf_load_reads : forall l es, plain l -> written es l -> load (Some l) = Got (contents es).
Proof. intros l es P W. apply load_read; auto. Qed.
Print Assumptions conf_load_reads.

(** A file that is loaded was written by the rules, but the last right brace may be missing, unless a domain is called main. Missing: that no brace can be
    missing (refuted below). *)
Theorem conf_load_only_partial : forall l cf, plain l -> load (Some l) = Got cf -> ~ In outer (map fst (tl cf)) ->
  exists es, cf = contents es /\ (written es l \/ unclosed es l).
Proof. exact load_made. Qed.
Print Assumptions conf_load_only_partial.

(** Loading ends for every file. *)
Theorem conf_load_total : forall file, load file <> NoFuel.
Proof. exact load_total. Qed.
Print Assumptions conf_load_total.

(** ** Looking up *)
(** In a configuration that was loaded, for every name: what is found under it is what the file has under it, and nothing is found only if there is
    nothing; all commands of a domain are listed in the order of the file, and counted. *)
Theorem conf_find : forall file cf, match file with Some l => plain l | None => True end -> load file = Got cf -> forall d, ascii d ->
  (exists cs, lookup cf d = Some (Some cs) /\ In (d, cs) cf /\ cmds cf d = Some cs /\ cmd_num cf d = Some (N.of_nat (length cs)) /\
     forall k, ascii k -> (exists its, lookup cs k = Some (Some its) /\ In (k, its) cs) \/ (lookup cs k = Some None /\ ~ In k (map fst cs))) \/
  (lookup cf d = Some None /\ ~ In d (map fst cf) /\ cmds cf d = Some [] /\ cmd_num cf d = Some 0).
Proof.
  intros file cf P L d AD. destruct (load_ascii file cf P L) as [A1 A2]. destruct (lookup_ok cf d A1 AD) as ([cs|] & F & I).
  - left. exists cs. assert (AC : ascii_names cs) by (apply (proj1 (Forall_forall _ _) A2 (d, cs) I)). destruct (cmds_ok cf d cs F AC) as [C1 C2].
    repeat (split; [assumption|]). intros k AK. destruct (lookup_ok cs k AC AK) as ([its|] & G & J); [left; eauto|right; auto].
  - right. unfold cmds, cmd_num. change command with (bytes * list item)%type in *. rewrite F. auto.
Qed.
Print Assumptions conf_find.

(** Items are counted from 1. *)
Theorem conf_item : forall its i x, item_search its i = Some x <-> 1 <= i /\ nth_error its (N.to_nat i - 1) = Some x.
Proof.
  intros its i x. unfold item_search. destruct (i =? 0) eqn:E; cbn [orb]; [split; [discriminate|lia]|].
  replace (N.to_nat (i - 1)) with (N.to_nat i - 1)%nat by lia. destruct (N.of_nat (length its) <? i) eqn:G.
  - split; [discriminate|]. intros [_ H]. assert (nth_error its (N.to_nat i - 1) <> None) as X by (rewrite H; discriminate). apply nth_error_Some in X. lia.
  - split; [intros H; split; [lia|exact H]|intros [_ H]; exact H].
Qed.
Print Assumptions conf_item.

Lemma nodup_in : forall {A} (l : list (bytes * A)) k a b, NoDup (map fst l) -> In (k, a) l -> In (k, b) l -> a = b.
Proof.
  intros A l; induction l as [|[j c] l IH]; intros k a b N I J; [contradiction|]. cbn [map fst] in N. inversion N as [|? ? N1 N2]; subst.
  cbn [In] in *. destruct I as [I|I], J as [J|J]; try (injection I as I1 I2); try (injection J as J1 J2); subst.
  - reflexivity.
  - elim N1. apply in_map_iff. exists (k, b). auto.
  - elim N1. apply in_map_iff. exists (k, a). auto.
  - eauto.
Qed.
(** From the file to the answer: if no two domains have a name, nor two commands of the domain, then the items of a command of the file are what is found
    for its domain and its name; the commands outside of domains are found in the domain main. *)
Theorem conf_get : forall l es d cs k its, plain l -> written es l -> In (d, cs) (contents es) -> In (k, its) cs ->
  NoDup (map fst (contents es)) -> NoDup (map fst cs) ->
  exists cf, load (Some l) = Got cf /\ lookup cf d = Some (Some cs) /\ lookup cs k = Some (Some its).
Proof.
  intros l es d cs k its P W I J N1 N2. exists (contents es). pose proof (conf_load_reads l es P W) as L. split; [exact L|].
  destruct (load_ascii (Some l) _ P L) as [A1 A2]. assert (AC : ascii_names cs) by (apply (proj1 (Forall_forall _ _) A2 (d, cs) I)).
  assert (AD : ascii d) by (apply (proj1 (Forall_forall _ _) A1 (d, cs) I)). assert (AK : ascii k) by (apply (proj1 (Forall_forall _ _) AC (k, its) J)).
  destruct (lookup_ok _ d A1 AD) as ([cs'|] & F & G); [|elim G; apply in_map_iff; exists (d, cs); auto].
  destruct (lookup_ok _ k AC AK) as ([its'|] & F2 & G2); [|elim G2; apply in_map_iff; exists (k, its); auto].
  rewrite F, F2, (nodup_in _ _ _ _ N1 G I), (nodup_in _ _ _ _ N2 G2 J). auto.
Qed.
Print Assumptions conf_get.

(** ** Loading again *)
(** A file by the rules replaces the configuration. The handlers are called one after the other, up to the first that fails; 0 is returned if none does. *)
Theorem conf_reload_new : forall l es hooks g, plain l -> written es l ->
  exists v n, conf_reload (Some l) hooks g = Got (v, n, Some (contents es)) /\
    ((v = 0%Z /\ n = length hooks /\ Forall (fun h => 0 <= h)%Z hooks) \/
     (v = (-1)%Z /\ exists a h b, hooks = a ++ h :: b /\ Forall (fun h => 0 <= h)%Z a /\ (h < 0)%Z /\ n = S (length a))).
Proof.
  intros l es hooks g P W. unfold conf_reload, conf_load. rewrite (conf_load_reads l es P W). cbn [andthen snd].
  exists (fst (run_hooks hooks)), (snd (run_hooks hooks)). split; [destruct (run_hooks hooks); reflexivity|].
  clear. induction hooks as [|h hooks IH]; cbn [run_hooks]; [left; cbn; auto|]. destruct (h <? 0)%Z eqn:E.
  - right. cbn [fst snd]. split; [reflexivity|]. exists [], h, hooks. repeat split; auto. lia.
  - cbn [fst snd]. destruct IH as [(V & N & F)|(V & a & x & b & E1 & F & X & N)].
    + left. rewrite V, N. repeat split; auto. constructor; [lia|exact F].
    + right. split; [exact V|]. exists (h :: a), x, b. subst. cbn [length app]. repeat split; auto. constructor; [lia|exact F].
Qed.
Print Assumptions conf_reload_new.

(** ** Comments *)
Fixpoint adjacent (a b : N) (s : bytes) : Prop :=
  match s with x :: (y :: _) as r => (x = a /\ y = b) \/ adjacent a b r | _ => False end.
Definition comment (s : bytes) : bytes := 47 :: 42 :: s ++ [42; 47].
(** A comment in which no two stars are next to each other, nor a star and a slash, is skipped up to its end. Missing: stars next to each other (refuted
    below). *)
Theorem conf_comment_partial : forall s r, plain (s ++ r) -> ~ adjacent 42 47 (s ++ [42]) -> ~ adjacent 42 42 (s ++ [42]) ->
  lex_token conf_keywords conf_hooks (Some (comment s ++ r)) = LTok T_comment (Some r).
Proof.
  intros s r P A B. assert (C : comment_body s).
  { clear P. assert (X : forall n s, (length s < n)%nat -> ~ adjacent 42 47 (s ++ [42]) -> ~ adjacent 42 42 (s ++ [42]) -> comment_body s).
    { clear. intros n; induction n as [|n IH]; intros s L A B; [lia|]. destruct s as [|c s]; [constructor|]. destruct (N.eq_dec c 42) as [->|E].
      - destruct s as [|d s]; [elim B; left; auto|]. apply cb_star.
        + intros ->. apply A. left. auto.
        + apply IH; [cbn [length] in L; lia| |]; intros X; [apply A|apply B]; cbn [app adjacent]; right; destruct s; [destruct X|right; exact X| |right; exact X]; destruct X.
      - apply cb_char; [exact E|]. apply IH; [cbn [length] in L; lia| |]; intros X; [apply A|apply B]; cbn [app adjacent]; destruct s; cbn [app] in *; try destruct X; right; auto. }
    apply (X (S (length s)) s); auto. }
  assert (P' : plain (s ++ 42 :: 47 :: r)).
  { apply Forall_app in P. destruct P as [P1 P2]. apply Forall_app. split; [exact P1|]. constructor; [reflexivity|]. constructor; [reflexivity|exact P2]. }
  transitivity (match block_comment ((s ++ [42; 47]) ++ r) with None => LErr | Some l => LTok T_comment l end); [reflexivity|].
  rewrite <- app_assoc. cbn [app]. rewrite (block_spelled s C r P'). reflexivity.
Qed.
Print Assumptions conf_comment_partial.
Example conf_comment_ex : lex_token conf_keywords conf_hooks (Some (comment (text "* a ' 2*x "" // /*b ") ++ text " a 1;")) = LTok T_comment (Some (text " a 1;")).
Proof. vm_compute. reflexivity. Qed.

(** Refuted: that a comment ends at the first star with a slash. A star takes the character that follows it with it. *)
Theorem conf_comment_refuted :
  ~ (forall s r, plain (s ++ r) -> ~ adjacent 42 47 (s ++ [42]) -> lex_token conf_keywords conf_hooks (Some (comment s ++ r)) = LTok T_comment (Some r)).
Proof.
  intros H. specialize (H [42] (text " a 1;")).
  assert (P : plain ([42] ++ text " a 1;")) by (repeat (constructor; [vm_compute; reflexivity|]); constructor).
  specialize (H P). assert (A : ~ adjacent 42 47 ([42] ++ [42])) by (cbn; intros [[_ X]|X]; [discriminate|contradiction]). specialize (H A). vm_compute in H. discriminate.
Qed.
Print Assumptions conf_comment_refuted.
(** The rest of the file is lost, without an error. *)
Example conf_comment_lost : load (Some (comment (text "*") ++ text " a 1;")) = Got [(main, [])].
Proof. vm_compute. reflexivity. Qed.

(** ** A file *)
Definition conf_text : bytes := text "a 1; /* all
 */ log { level ""x\n""; b on off -12 - 3.50 'c' '\''; }
 b; // the end
 c 2 3;".
Definition conf_value : conf :=
  [(main, [(text "a", [IInt 1]); (text "b", []); (text "c", [IInt 2; IInt 3])]);
   (text "log", [(text "level", [IStr (text "x" ++ [10])]); (text "b", [IBool true; IBool false; IInt (-12); IFloat true 350 2; IChar 99; IChar 39])])].
Example conf_ex : load (Some conf_text) = Got conf_value.
Proof. vm_compute. reflexivity. Qed.
Lemma conf_plain : forall l, forallb (fun c => c <? 254) l = true -> plain l.
Proof. intros l H. rewrite forallb_forall in H. apply Forall_forall. intros c C. apply H in C. lia. Qed.

(** Right braces and left braces balance. *)
Definition brace (t : token) : Z := if is_spec 123 t then 1%Z else if is_spec 125 t then (-1)%Z else 0%Z.
Definition braces (ts : list token) : Z := fold_right (fun t z => (brace t + z)%Z) 0%Z ts.
Lemma braces_app : forall a b, braces (a ++ b) = (braces a + braces b)%Z.
Proof. intros a b; induction a as [|t a IH]; [reflexivity|]. cbn [app]. change (braces (t :: a ++ b)) with (brace t + braces (a ++ b))%Z. change (braces (t :: a)) with (brace t + braces a)%Z. lia. Qed.
Lemma braces_concat : forall {A} (R : A -> list token -> Prop) xs parts, (forall x ts, R x ts -> braces ts = 0%Z) -> Forall2 R xs parts -> braces (concat parts) = 0%Z.
Proof. intros A R xs parts H F; induction F as [|x ts xs parts X F IH]; [reflexivity|]. cbn [concat]. rewrite braces_app, IH, (H _ _ X). reflexivity. Qed.
Lemma braces_item : forall i ts, item_tokens i ts -> braces ts = 0%Z.
Proof. intros i ts H; inversion H; subst; reflexivity. Qed.
Lemma braces_command : forall c ts, command_tokens c ts -> braces ts = 0%Z.
Proof.
  intros c ts (parts & F & ->). change (TId (fst c) :: concat parts ++ [TSpec 59]) with ([TId (fst c)] ++ concat parts ++ [TSpec 59]).
  rewrite !braces_app, (braces_concat _ _ _ braces_item F). reflexivity.
Qed.
Lemma braces_entry : forall e ts, entry_tokens e ts -> braces ts = 0%Z.
Proof.
  intros [c|d] ts H; [exact (braces_command c ts H)|]. destruct H as (_ & parts & F & ->).
  change (TId (fst d) :: TSpec 123 :: concat parts ++ [TSpec 125]) with ([TId (fst d); TSpec 123] ++ concat parts ++ [TSpec 125]).
  rewrite !braces_app, (braces_concat _ _ _ braces_command F). reflexivity.
Qed.
Lemma braces_file : forall es ts, file_tokens es ts -> braces ts = 0%Z.
Proof. intros es ts (parts & F & ->). exact (braces_concat _ _ _ braces_entry F). Qed.
Lemma braces_without : forall us ts, without_comments us ts -> braces us = braces ts.
Proof.
  intros us ts W; induction W as [|us ts W IH|t us ts N M W IH]; [reflexivity| |].
  - change (braces (T_comment :: us)) with (0 + braces us)%Z. lia.
  - change (braces (t :: us)) with (brace t + braces us)%Z. change (braces (t :: ts)) with (brace t + braces ts)%Z. lia.
Qed.
Lemma balanced : forall es l us, plain l -> written es l -> lexes conf_keywords conf_hooks (Some l) us -> braces us = 0%Z.
Proof.
  intros es l us P (ts & (vs & S & W) & F) L. apply (lex_exact _ _ _ conf_keywords_ok conf_hooks_ok l us P) in L.
  rewrite (lex_unambiguous _ _ _ conf_keywords_ok conf_hooks_ok l us vs P L S), (braces_without _ _ W). exact (braces_file _ _ F).
Qed.
(** Refuted: that a file that is loaded was written by the rules. The last right brace may be missing. *)
Theorem conf_load_only_refuted : ~ (forall l cf, plain l -> load (Some l) = Got cf -> exists es, written es l).
Proof.
  intros H. destruct (H (text "x { a 1; ") [(main, []); (text "x", [(text "a", [IInt 1])])] ltac:(apply conf_plain; reflexivity) ltac:(vm_compute; reflexivity)) as (es & W).
  assert (L : lexes conf_keywords conf_hooks (Some (text "x { a 1; ")) [TId (text "x"); TSpec 123; TId (text "a"); TDec (text "1"); TSpec 59]) by lex_all.
  pose proof (balanced _ _ _ (conf_plain (text "x { a 1; ") eq_refl) W L) as B. vm_compute in B. discriminate.
Qed.
Print Assumptions conf_load_only_refuted.

(** The hypotheses of [conf_get] hold of the text above. *)
Example conf_ex_written : exists es, written es conf_text /\ contents es = conf_value.
Proof.
  destruct (conf_load_only_partial conf_text conf_value ltac:(apply conf_plain; reflexivity) conf_ex) as (es & E & [W|W]).
  - vm_compute. intros [X|[]]. discriminate.
  - exists es. auto.
  - exfalso. assert (L : lexes conf_keywords conf_hooks (Some conf_text)
      ([TId (text "a"); TDec (text "1"); TSpec 59; T_comment; TId (text "log"); TSpec 123; TId (text "level"); T_str (text "x" ++ [10]); TSpec 59;
        TId (text "b"); TKw 0; TKw 1; TSpec 45; TDec (text "12"); TSpec 45; TReal (text "3.50"); T_char [99]; T_char [39]; TSpec 59; TSpec 125;
        TId (text "b"); TSpec 59; T_comment; TId (text "c"); TDec (text "2"); TDec (text "3"); TSpec 59])) by lex_all.
    destruct W as (ts & (vs & S & WC) & F). pose proof (conf_plain conf_text eq_refl) as P.
    apply (lex_exact _ _ _ conf_keywords_ok conf_hooks_ok conf_text _ P) in L.
    rewrite <- (lex_unambiguous _ _ _ conf_keywords_ok conf_hooks_ok conf_text _ vs P L S) in WC. apply braces_without in WC. apply braces_file in F.
    rewrite braces_app, <- WC in F. vm_compute in F. discriminate.
Qed.
Example conf_ex_get : lookup conf_value (text "log") = Some (nth_error (map snd conf_value) 1) /\
  (forall cs, nth_error (map snd conf_value) 1 = Some cs -> lookup cs (text "level") = Some (Some [IStr (text "x" ++ [10])])) /\
  cmd_num conf_value main = Some 3 /\ lookup conf_value (text "nope") = Some None.
Proof. split; [|split; [|split]]; [vm_compute; reflexivity|intros cs H; injection H as H; subst; vm_compute; reflexivity|vm_compute; reflexivity|vm_compute; reflexivity]. Qed.
Example conf_ex_nodup : NoDup (map fst conf_value) /\ Forall (fun d => NoDup (map fst (snd d))) conf_value.
Proof. split; [|constructor; [|constructor; [|constructor]]]; vm_compute; repeat (constructor; [intros X; repeat (destruct X as [X|X]; [discriminate|]); exact X|]); constructor. Qed.

(** ** What is not so *)
(** Refuted: that the first command of a name is found, or the last. *)
Theorem conf_first_refuted :
  ~ (forall l cf cs k its r, plain l -> load (Some l) = Got cf -> lookup cf main = Some (Some cs) -> cs = (k, its) :: r -> lookup cs k = Some (Some its)).
Proof.
  intros H. specialize (H (text "a 1; a 2; a 3;") [(main, [(text "a", [IInt 1]); (text "a", [IInt 2]); (text "a", [IInt 3])])] _ _ _ _
    ltac:(apply conf_plain; reflexivity) ltac:(vm_compute; reflexivity) ltac:(vm_compute; reflexivity) eq_refl). vm_compute in H. discriminate.
Qed.
Print Assumptions conf_first_refuted.
Theorem conf_last_refuted :
  ~ (forall l cf cs k its r, plain l -> load (Some l) = Got cf -> lookup cf main = Some (Some cs) -> cs = r ++ [(k, its)] -> lookup cs k = Some (Some its)).
Proof.
  intros H. specialize (H (text "a 1; a 2; a 3;") [(main, [(text "a", [IInt 1]); (text "a", [IInt 2]); (text "a", [IInt 3])])]
    _ (text "a") [IInt 3] [(text "a", [IInt 1]); (text "a", [IInt 2])]
    ltac:(apply conf_plain; reflexivity) ltac:(vm_compute; reflexivity) ltac:(vm_compute; reflexivity) eq_refl). vm_compute in H. discriminate.
Qed.
Print Assumptions conf_last_refuted.

(** Refuted: that every word may be the name of a domain. One that is called main cannot be closed. *)
Theorem conf_main_refuted : ~ (forall d, LexSpec.word d -> exists cf, load (Some (d ++ text " { a 1; }")) = Got cf).
Proof.
  intros H. destruct (H main) as (cf & L).
  - split; [exists 109, (text "ain"); split; [reflexivity|split; [left; split; discriminate|]]; repeat (constructor; [left; left; split; discriminate|]); constructor|discriminate].
  - vm_compute in L. discriminate.
Qed.
Print Assumptions conf_main_refuted.

(** Refuted: that every number may be an item. Those in octal and hexadecimal are not. *)
Theorem conf_number_refuted :
  ~ (forall s t, lexes conf_keywords conf_hooks (Some s) [t] -> match t with TDec _ | TOct _ | THex _ | TReal _ => True | _ => False end ->
     exists cf, load (Some (text "a " ++ s ++ text ";")) = Got cf).
Proof.
  intros H. destruct (H (text "0x1F") (THex (text "0x1F"))) as (cf & L); [lex_all|exact I|]. vm_compute in L. discriminate.
Qed.
Print Assumptions conf_number_refuted.

(** Refuted: that there is a configuration after a reload that returns 0. A file that is not loaded leaves none, not even the old one. *)
Theorem conf_reload_refuted :
  ~ (forall file hooks g n g', conf_reload file hooks (Some g) = Got (0%Z, n, g') -> g' <> None).
Proof. intros H. specialize (H (Some (text "a")) [] [(main, [])] 0%nat None ltac:(vm_compute; reflexivity)). apply H. reflexivity. Qed.
Print Assumptions conf_reload_refuted.
Example conf_ex_reload : conf_reload (Some conf_text) [1%Z; 0%Z; (-2)%Z; 0%Z] None = Got ((-1)%Z, 3%nat, Some conf_value) /\
  conf_reload (Some conf_text) [1%Z; 0%Z] (Some [(main, [])]) = Got (0%Z, 2%nat, Some conf_value).
Proof. vm_compute. split; reflexivity. Qed.
Example conf_ex_item : item_search [IInt 2; IInt 3] 2 = Some (IInt 3) /\ item_search [IInt 2; IInt 3] 3 = None /\ item_search [IInt 2; IInt 3] 0 = None.
Proof. vm_compute. repeat split. Qed.
