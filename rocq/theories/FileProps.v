(** C57 (sharing open files). *)
Require Import List Arith NArith Lia Bool.
Require Import ZifyBool ZifyNat ZifyN.
Require Import Permutation.
Require Import Verif.Base Verif.FileModel Verif.FileSpec Verif.FileProofs.
Require Import String.
Import List ListNotations.
Open Scope list_scope.
Open Scope N_scope.

(** A file set is a cache: it answers every allowed history as the cache does, no call faults, and afterwards the descriptors open, the files
    known with their fields, and the ones that wait, are those of the cache.  Partial: the paths are ASCII and no tree node is refused. *)
Theorem file_set_is_cache_partial : forall max xs, allowed_run max empty xs -> N.of_nat (length xs) < 2 ^ 64 ->
  exists fs, run (fileset_init max) xs = Some (fs, snd (cache_run max empty xs)) /\
    let c := fst (cache_run max empty xs) in
    Permutation (fds fs) (map e_fd (known c)) /\ unused fs = waiting c /\
    (forall e, In e (known c) -> nth_error (files fs) (e_file e) = Some (mkFile (e_path e) (e_fd e) (N.of_nat (e_users e)) (e_size e) true)).
Proof.
  intros max xs Al Bd. destruct (run_ok max xs 0 _ _ (init_ok max) Al ltac:(lia)) as (fs & E & A). exists fs. split; [exact E|]. cbv zeta.
  split; [apply (c_fds (a_core A))|]. split; [apply (a_unused A)|]. apply (c_file (a_core A)).
Qed.
Print Assumptions file_set_is_cache_partial.

Definition text (s : string) : list N := map Ascii.N_of_ascii (list_ascii_of_string s).
Definition history : list call :=
  [Open (text "a") (Found 3 10); Open (text "b") (Found 4 20); Open (text "a") Missing; Close 1; Close 0; Open (text "c") (Found 5 30);
   Close 2; Open (text "a") (Found 6 11); Close 0; Close 0; Open (text "b") (Found 4 21)]%nat.
Ltac find_user t := eexists; split; [t; left; reflexivity|split; [reflexivity|repeat constructor]].
Ltac allow := vm_compute; repeat split; try (intros H; repeat (destruct H as [H|H]; [discriminate|]); exact H);
  first [find_user idtac|find_user ltac:(right)|find_user ltac:(right; right)].
Example file_ex_history : allowed_run 1 empty history.
Proof. allow. Qed.
Example file_ex_answers : option_map snd (run (fileset_init 1) history) =
  Some [Some 0; Some 1; Some 0; None; None; Some 2; None; Some 0; None; None; Some 3]%nat.
Proof. vm_compute. reflexivity. Qed.

(** A file opened more often than closed: it is open, its reference count is the difference, opening its path again gives the same file, whatever
    the operating system would answer, and every call that returned it named this path.  Two such files have different paths and descriptors. *)
Theorem file_shared_partial : forall max xs fs os, allowed_run max empty xs -> N.of_nat (length xs) + 1 < 2 ^ 64 ->
  run (fileset_init max) xs = Some (fs, os) ->
  (forall i, (closes i xs <= opens i xs os)%nat) /\
  (forall i, (closes i xs < opens i xs os)%nat -> exists f, nth_error (files fs) i = Some f /\ f_live f = true /\ In (f_fd f) (fds fs) /\
    f_refs f = N.of_nat (opens i xs os - closes i xs) /\
    (forall o, exists fs', file_open fs (f_path f) o = Some (fs', Some i)) /\
    (forall p o, In (Open p o, Some i) (combine xs os) -> p = f_path f)) /\
  (forall i j f g, i <> j -> (closes i xs < opens i xs os)%nat -> (closes j xs < opens j xs os)%nat ->
    nth_error (files fs) i = Some f -> nth_error (files fs) j = Some g -> f_path f <> f_path g /\ f_fd f <> f_fd g).
Proof.
  intros max xs fs os Al Bd Ru. destruct (run_ok max xs 0 _ _ (init_ok max) Al ltac:(lia)) as (fs' & E & A). rewrite Ru in E. injection E as <- ->.
  pose proof (fun i => run_users max i xs 0 _ _ (init_ok max) Al ltac:(lia)) as U. pose proof (run_paths max xs 0 _ _ (init_ok max) Al ltac:(lia)) as RP.
  change (users empty) with (fun _ : nat => 0%nat) in U. cbv beta in U.
  set (c := fst (cache_run max empty xs)) in *. set (os := snd (cache_run max empty xs)) in *. cbn [Nat.add] in U, A.
  pose proof (a_core A) as C. pose proof (c_nfile C) as ND.
  assert (K : forall i, (closes i xs < opens i xs os)%nat -> exists e, In e (known c) /\ e_file e = i /\ e_users e = (opens i xs os - closes i xs)%nat).
  { intros i H. specialize (U i). unfold users in U. destruct (entry_of c i) as [e|] eqn:Ee; [|lia]. apply entry_of_some in Ee. exists e. split; [apply Ee|]. split; [apply Ee|lia]. }
  split; [intros i; specialize (U i); lia|]. split.
  - intros i H. destruct (K i H) as (e & He & <- & Eu). eexists. split; [apply (c_file C e He)|]. cbn [f_live f_fd f_path f_refs]. split; [reflexivity|].
    split; [eapply Permutation_in; [apply Permutation_sym, (c_fds C)|apply in_map; exact He]|]. split; [rewrite Eu; reflexivity|]. split.
    + intros o. pose proof (open_known max (length xs) fs c e o A He ltac:(lia)) as (fs' & Eo & _). exists fs'. exact Eo.
    + intros p o Hi. symmetry. apply (RP e p o He Hi).
  - intros i j f g Ne Hi Hj Fi Fj. destruct (K i Hi) as (e & He & <- & _). destruct (K j Hj) as (e' & He' & <- & _).
    rewrite (c_file C e He) in Fi. rewrite (c_file C e' He') in Fj. injection Fi as <-. injection Fj as <-. cbn [f_path f_fd].
    split; intros X; apply Ne; f_equal; [apply (nodup_same e_path (known c))|apply (nodup_same e_fd (known c))]; auto; [apply (c_npath C)|apply (c_nfd C)].
Qed.
Print Assumptions file_shared_partial.

(** The first seven calls of the history: the first file is opened twice and closed once. *)
Example file_ex_shared : let xs := firstn 7 history in let os := [Some 0; Some 1; Some 0; None; None; Some 2; None]%nat in
  allowed_run 1 empty xs /\ option_map snd (run (fileset_init 1) xs) = Some os /\ (closes 0 xs, opens 0 xs os) = (1, 2)%nat.
Proof. cbv zeta. split; [allow|]. split; vm_compute; reflexivity. Qed.

(** The descriptors open for a set are never more than the limit and the files in use together; the files waiting are never more than the limit,
    and none of them is in use; when all files are closed at most the limit is open; and destroying the set closes every descriptor. *)
Theorem file_limit_partial : forall max xs fs os, allowed_run max empty xs -> N.of_nat (length xs) < 2 ^ 64 ->
  run (fileset_init max) xs = Some (fs, os) ->
  (exists inuse, (forall i, In i inuse <-> (closes i xs < opens i xs os)%nat) /\ NoDup inuse /\
    N.of_nat (length (fds fs)) <= max + N.of_nat (length inuse) /\ length (fds fs) = (length inuse + length (unused fs))%nat) /\
  N.of_nat (length (unused fs)) <= max /\ (forall i, In i (unused fs) -> closes i xs = opens i xs os) /\
  (exists fs', fileset_destroy fs = Some fs' /\ fds fs' = []).
Proof.
  intros max xs fs os Al Bd Ru. destruct (run_ok max xs 0 _ _ (init_ok max) Al ltac:(lia)) as (fs' & E & A). rewrite Ru in E. injection E as <- ->.
  pose proof (fun i => run_users max i xs 0 _ _ (init_ok max) Al ltac:(lia)) as U.
  change (users empty) with (fun _ : nat => 0%nat) in U. cbv beta in U.
  assert (H : bounded max (fst (cache_run max empty xs))) by (apply (run_bounded max xs 0 _ _ (init_ok max) Al); [lia|unfold bounded; cbn; lia]).
  set (c := fst (cache_run max empty xs)) in *. set (os := snd (cache_run max empty xs)) in *. cbn [Nat.add] in U, A.
  pose proof (a_core A) as C. pose proof (c_nfile C) as ND. pose proof (waiting_length _ _ _ _ A) as WL.
  assert (FL : length (fds fs) = length (known c)) by (rewrite (Permutation_length (c_fds C)); apply map_length).
  unfold bounded in H. rewrite (a_unused A). split; [|split; [lia|split]].
  - exists (map e_file (in_use c)). split; [|split; [|rewrite map_length; split; lia]].
    + intros i. specialize (U i). rewrite in_map_iff. split.
      * intros (e & <- & He). apply filter_In in He. destruct He as [He Hu]. apply Nat.ltb_lt in Hu. rewrite (users_is c e ND He) in U. lia.
      * intros Hi. unfold users in U. destruct (entry_of c i) as [e|] eqn:Ee; [|lia]. apply entry_of_some in Ee. exists e. split; [apply Ee|]. apply filter_In. split; [apply Ee|]. apply Nat.ltb_lt. lia.
    + unfold in_use. apply nodup_filter_map. exact ND.
  - intros i Hi. apply (a_wait A) in Hi. destruct Hi as (e & He & <- & Z). specialize (U (e_file e)). rewrite (users_is c e ND He) in U. lia.
  - apply (destroy_ok _ _ _ _ A).
Qed.
Print Assumptions file_limit_partial.
Example file_ex_limit : option_map (fun x => (fds (fst x), unused (fst x))) (run (fileset_init 1) (firstn 10 history)) = Some ([3], [0%nat]).
Proof. vm_compute. reflexivity. Qed.

(** The hypothesis on paths is needed: the order of the tree is not transitive on bytes above 127, and a path that is open is opened a second
    time.  The paths are those of eight files, one of them named with the sign of a square. *)
Definition names : list (list N) :=
  [text "m/00"; [109; 47; 194; 178]; text "m/0a"; text "m/0b"; text "m/0c"; text "m/0d"; text "m/0e"; text "m/0f"].
Definition opening (l : list (list N)) : list call := map (fun x => Open (snd x) (Found (3 + N.of_nat (fst x)) 0)) (combine (seq 0 (length l)) l).
Theorem file_shared_all_paths_refuted : ~ (forall max xs fs os i p o fd size fs' r,
  (forall x, In x xs -> exists q fd n, x = Open q (Found fd n)) ->
  run (fileset_init max) xs = Some (fs, os) -> In (Open p o, Some i) (combine xs os) -> ~ In fd (fds fs) ->
  file_open fs p (Found fd size) = Some (fs', r) -> r = Some i).
Proof.
  intros F. set (p := [109; 47; 194; 178]) in *.
  assert (H : match run (fileset_init 100) (opening names) with
    | Some (fs, os) => match file_open fs p (Found 99 0) with
      | Some (_, r) => r = Some 8%nat /\ nth_error (combine (opening names) os) 1 = Some (Open p (Found 4 0), Some 1%nat) /\ existsb (N.eqb 99) (fds fs) = false
      | None => False end
    | None => False end) by (vm_compute; repeat split).
  destruct (run (fileset_init 100) (opening names)) as [[fs os]|] eqn:E; [|destruct H].
  destruct (file_open fs p (Found 99 0)) as [[fs' r]|] eqn:Eo; [|destruct H]. destruct H as (H1 & H2 & H3).
  assert (X : r = Some 1%nat).
  { apply (F 100 (opening names) fs os 1%nat p (Found 4 0) 99 0 fs' r); auto.
    - intros x Hx. unfold opening in Hx. apply in_map_iff in Hx. destruct Hx as ([n q] & <- & _). eauto.
    - eapply nth_error_In. exact H2.
    - intros Hi. assert (existsb (N.eqb 99) (fds fs) = true) by (apply existsb_exists; exists 99; auto). congruence. }
  congruence.
Qed.
Print Assumptions file_shared_all_paths_refuted.

(** The documentation says that opening a new file over the limit releases a file that is not used.  It does not: only closing does. *)
Theorem file_open_releases_refuted : ~ (forall max xs fs os p o fs' i, allowed_run max empty (xs ++ [Open p o]) ->
  run (fileset_init max) xs = Some (fs, os) -> unused fs <> [] -> max <= N.of_nat (length (fds fs)) ->
  file_open fs p o = Some (fs', Some i) -> (length (fds fs') <= length (fds fs))%nat).
Proof.
  intros F. set (xs := [Open (text "a") (Found 3 0); Close 0%nat]) in *.
  assert (H : match run (fileset_init 1) xs with
    | Some (fs, os) => match file_open fs (text "b") (Found 4 0) with
      | Some (fs', r) => r = Some 1%nat /\ unused fs = [0%nat] /\ length (fds fs) = 1%nat /\ length (fds fs') = 2%nat
      | None => False end
    | None => False end) by (vm_compute; repeat split).
  destruct (run (fileset_init 1) xs) as [[fs os]|] eqn:E; [|destruct H]. destruct (file_open fs (text "b") (Found 4 0)) as [[fs' r]|] eqn:Eo; [|destruct H].
  destruct H as (-> & H1 & H2 & H3). assert (X : (length (fds fs') <= length (fds fs))%nat); [|lia].
  apply (F 1 xs fs os (text "b") (Found 4 0) fs' 1%nat); auto; [unfold xs; cbn [app]; allow|congruence|lia].
Qed.
Print Assumptions file_open_releases_refuted.

(** What is known of a file is what [fstat] told when the file was first opened, even when nobody had it open in between and it has changed. *)
Theorem file_size_current_refuted : ~ (forall max xs fs os p fd size fs' i f, allowed_run max empty (xs ++ [Open p (Found fd size)]) ->
  (forall j, closes j xs = opens j xs os) ->
  run (fileset_init max) xs = Some (fs, os) -> file_open fs p (Found fd size) = Some (fs', Some i) -> nth_error (files fs') i = Some f -> f_size f = size).
Proof.
  intros F. set (xs := [Open (text "a") (Found 3 10); Close 0%nat]) in *.
  assert (H : match run (fileset_init 1) xs with
    | Some (fs, os) => match file_open fs (text "a") (Found 4 20) with
      | Some (fs', r) => r = Some 0%nat /\ os = [Some 0%nat; None] /\ nth_error (files fs') 0 = Some (mkFile (text "a") 3 1 10 true)
      | None => False end
    | None => False end) by (vm_compute; repeat split).
  destruct (run (fileset_init 1) xs) as [[fs os]|] eqn:E; [|destruct H]. destruct (file_open fs (text "a") (Found 4 20)) as [[fs' r]|] eqn:Eo; [|destruct H].
  destruct H as (-> & -> & H1). assert (X : f_size (mkFile (text "a") 3 1 10 true) = 20); [|discriminate].
  apply (F 1 xs fs [Some 0%nat; None] (text "a") 4 20 fs' 0%nat); auto. unfold xs. cbn [app]. allow.
Qed.
Print Assumptions file_size_current_refuted.

(** When there is no memory for a tree node, the file that is given up stays in the chain of files that wait, and the next call reads freed memory. *)
Theorem file_out_of_memory_refuted : ~ (forall max xs, Forall (fun x => match x with Open p _ => ascii_path p = true | Close _ => False end) xs ->
  exists fs os, run (fileset_init max) xs = Some (fs, os)).
Proof.
  intros F. destruct (F 10 [Open (text "a") (NoNode 3 0); Open (text "b") (Found 3 0)]) as (fs & os & E); [repeat constructor|]. vm_compute in E. discriminate.
Qed.
Print Assumptions file_out_of_memory_refuted.
