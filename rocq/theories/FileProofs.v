(** * Sets of files: proofs *)
From Coq Require Import List Arith NArith ZArith Bool Lia Permutation.
Require Import ZifyBool ZifyNat ZifyN.
From Verif Require Import Base ChainModel ChainProofs RbModel RbSpec RbProofs StrModel StrProofs FileModel FileSpec.
Import ListNotations.
Local Open Scope N_scope.

(** ** The order of the paths *)
Lemma ascii_path_ok p : ascii_path p = true <-> ascii p.
Proof.
  unfold ascii_path, ascii. rewrite forallb_forall, Forall_forall. split; intros H x Hx; specialize (H x Hx); [apply N.ltb_lt|apply N.ltb_lt in H]; auto.
Qed.
Lemma path_cmp_bytes a b : path_cmp a b = cmpbytes a b.
Proof. unfold path_cmp. rewrite strcmp_cmpbytes; [reflexivity|discriminate]. Qed.
Lemma path_cmp_zero a b : ascii a -> ascii b -> path_cmp a b = 0%Z <-> a = b.
Proof. intros A B. unfold path_cmp. rewrite strcmp_eq; cbn [s_bytes s_addr]; [reflexivity|apply ascii_bytes; auto|apply ascii_bytes; auto|discriminate]. Qed.

(** [path_cmp] made total. *)
Definition tcmp (a b : list N) : Z :=
  if ascii_path a then if ascii_path b then path_cmp a b else (-1)%Z else if ascii_path b then 1%Z else 0%Z.
Lemma tcmp_ascii a b : ascii_path a = true -> ascii_path b = true -> tcmp a b = path_cmp a b.
Proof. intros A B. unfold tcmp. rewrite A, B. reflexivity. Qed.
Lemma tcmp_preorder : preorder tcmp.
Proof.
  split.
  - intros a b. unfold tcmp. destruct (ascii_path a) eqn:A, (ascii_path b) eqn:B; try lia. apply ascii_path_ok in A, B.
    pose proof (cmpbytes_antisym a b A B). rewrite (path_cmp_bytes a b), (path_cmp_bytes b a).
    lia.
  - intros a b c. unfold tcmp. destruct (ascii_path a) eqn:A, (ascii_path b) eqn:B, (ascii_path c) eqn:C; try lia. apply ascii_path_ok in A, B, C.
    intros H1 H2. destruct (Z.eq_dec (path_cmp a b) 0) as [E|E]; [apply path_cmp_zero in E; auto; subst; exact H2|].
    destruct (Z.eq_dec (path_cmp b c) 0) as [E'|E']; [apply path_cmp_zero in E'; auto; subst; exact H1|].
    pose proof (cmpbytes_trans a b c A B C) as H. rewrite <- (path_cmp_bytes a b), <- (path_cmp_bytes b c), <- (path_cmp_bytes a c) in H. lia.
Qed.

Definition keys_ascii (t : rbtree (list N)) : Prop := forall a, ascii_path (key t a) = true.
Lemma search_ext m ky k : (forall a, ascii_path (ky a) = true) -> ascii_path k = true -> forall fuel x,
  search path_cmp fuel m ky k x = search tcmp fuel m ky k x.
Proof.
  intros A K. induction fuel as [|f IH]; intros x; cbn [search]; [reflexivity|].
  destruct (x =? 0); [reflexivity|]. rewrite tcmp_ascii by auto. rewrite IH. reflexivity.
Qed.
Lemma descend_ext m ky k : (forall a, ascii_path (ky a) = true) -> ascii_path k = true -> forall fuel x y,
  descend path_cmp fuel m ky k x y = descend tcmp fuel m ky k x y.
Proof.
  intros A K. induction fuel as [|f IH]; intros x y; cbn [descend]; [reflexivity|].
  destruct (x =? 0); [reflexivity|]. rewrite tcmp_ascii by auto. rewrite IH. reflexivity.
Qed.
Lemma set_ascii (ky : N -> list N) n d : (forall a, ascii_path (ky a) = true) -> ascii_path d = true -> forall a, ascii_path (set ky n d a) = true.
Proof. intros A D a. unfold set. destruct (a =? n); auto. Qed.
Lemma insert_ext t n d : keys_ascii t -> ascii_path d = true -> rb_insert path_cmp t n d = rb_insert tcmp t n d.
Proof.
  intros A D. pose proof (set_ascii _ n d A D) as A'. unfold rb_insert. cbv zeta. rewrite (descend_ext _ _ _ A' D).
  destruct (descend tcmp _ _ _ _ _ _) as [y|]; [|reflexivity]. cbn [obind]. unfold attach. rewrite !tcmp_ascii by auto. reflexivity.
Qed.
Lemma search_tree_ext t k : keys_ascii t -> ascii_path k = true -> rb_search path_cmp t k = rb_search tcmp t k.
Proof. intros A K. apply search_ext; auto. Qed.
Lemma insert_key {K} (cmp : K -> K -> Z) t n d t' : rb_insert cmp t n d = Some t' -> key t' = set (key t) n d.
Proof.
  unfold rb_insert. destruct (descend cmp _ _ _ _ _ _) as [y|]; [|discriminate]. cbn [obind].
  destruct (insert_fixup _ _ _) as [m|]; [|discriminate]. cbn [obind]. destruct (chain_add _ _ _ _) as [[[c hd] tl]|]; [|discriminate]. cbn [obind].
  intros E. apply (f_equal (fun o => match o with Some t => key t | None => key t' end)) in E. symmetry. exact E.
Qed.
Lemma insert_keys t n d t' : keys_ascii t -> ascii_path d = true -> rb_insert tcmp t n d = Some t' -> keys_ascii t'.
Proof. intros A D E a. rewrite (insert_key _ _ _ _ _ E). apply set_ascii; auto. Qed.
Lemma delete_keys (t : rbtree (list N)) n t' : rb_delete t n = Some t' -> key t' = key t.
Proof.
  intros E. unfold rb_delete in E. destruct (if n =? RbModel.min t then _ else _) as [mn|]; [|discriminate]. cbn [obind] in E.
  destruct (unlink _ _ _) as [m|]; [|discriminate]. cbn [obind] in E.
  match type of E with obind ?x _ = _ => destruct x as [[it dl]|]; [|discriminate] end. cbn [obind] in E.
  destruct (chain_del _ _ _ _) as [[[c hd] tl]|]; [|discriminate]. cbn [obind] in E. injection E as <-. reflexivity.
Qed.

(** ** The tree as a set of nodes with their paths *)
Definition holds_paths (t : rbtree (list N)) (l : list (N * list N)) : Prop :=
  keys_ascii t /\ exists s tr h, inv _ tcmp t s tr h /\ idle _ t /\ Permutation (sorted s) l.

Lemma holds_new t0 : (forall a, ascii_path (key t0 a) = true) -> holds_paths (rb_new t0) [].
Proof. intros A. split; [exact A|]. destruct (inv_new _ tcmp t0) as [I D]. exists (RbSpec.mkS [] []), E, O. auto. Qed.

Lemma holds_search t l p : holds_paths t l -> (forall a q, In (a, q) l -> a <> 0) -> ascii_path p = true ->
  exists a, rb_search path_cmp t p = Some a /\
    ((a <> 0 /\ In (a, p) l) \/ (a = 0 /\ forall b, ~ In (b, p) l)).
Proof.
  intros (K & s & tr & h & I & D & Pm) Z A. rewrite search_tree_ext by auto.
  destruct (r_step_ok _ tcmp tcmp_preorder t s tr h (RSearch p) I D Logic.I) as (t' & out & tr' & h' & E & S & _). cbn [r_step] in E.
  destruct (rb_search tcmp t p) as [a|]; [|discriminate]. cbn [obind] in E. injection E as <- <-. exists a. split; [reflexivity|].
  assert (KA : forall b d, In (b, d) (sorted s) -> ascii_path d = true).
  { intros b d H. rewrite (i_sorted _ _ _ _ _ _ I) in H. apply keyof_in in H. destruct H as [_ ->]. apply K. }
  inversion S as [| |k b d H1 H2|k H1| | | | |]; subst; clear S.
  - left. pose proof (KA _ _ H1) as Ad. rewrite tcmp_ascii in H2 by auto. apply path_cmp_zero in H2; [|apply ascii_path_ok; auto|apply ascii_path_ok; auto]. subst d.
    assert (X : In (a, p) l) by (eapply Permutation_in; eauto). split; [eapply Z; eauto|exact X].
  - right. split; [reflexivity|]. intros b H. apply (Permutation_in _ (Permutation_sym Pm)) in H. apply (H1 _ _ H). rewrite tcmp_ascii by auto.
    apply path_cmp_zero; auto; apply ascii_path_ok; auto.
Qed.

Lemma insert_sorted_perm a d l : Permutation (insert_sorted tcmp a d l) ((a, d) :: l).
Proof.
  induction l as [|[b e] l IH]; cbn [insert_sorted]; [apply Permutation_refl|]. destruct (tcmp d e <? 0)%Z; [apply Permutation_refl|].
  rewrite IH. apply perm_swap.
Qed.
Lemma holds_insert t l n p : holds_paths t l -> n <> 0 -> ~ In n (map fst l) -> ascii_path p = true ->
  exists t', rb_insert path_cmp t n p = Some t' /\ holds_paths t' ((n, p) :: l).
Proof.
  intros (K & s & tr & h & I & D & Pm) Z F A. rewrite insert_ext by auto.
  assert (F' : ~ In n (map fst (sorted s))) by (intros H; apply F; eapply Permutation_in; [|exact H]; apply Permutation_map; exact Pm).
  destruct (rb_insert_ok _ tcmp tcmp_preorder t s tr h n p I Z F') as (t' & tr' & h' & E & I' & It & Dl). exists t'. split; [exact E|].
  split; [eapply insert_keys; eauto|]. eexists _, tr', h'. split; [exact I'|]. destruct D as [D1 D2]. split; [split; congruence|].
  cbn [sorted]. rewrite insert_sorted_perm. constructor. exact Pm.
Qed.
Lemma filter_perm {A} (f : A -> bool) l l' : Permutation l l' -> Permutation (filter f l) (filter f l').
Proof.
  induction 1 as [|x l l' P IH|x y l|l l' l'' P1 IH1 P2 IH2]; cbn [filter].
  - constructor.
  - destruct (f x); [constructor; exact IH|exact IH].
  - destruct (f x), (f y); try apply Permutation_refl. apply perm_swap.
  - eapply perm_trans; eauto.
Qed.
Lemma holds_delete t l n : holds_paths t l -> In n (map fst l) -> exists t', rb_delete t n = Some t' /\ holds_paths t' (filter (fun x => negb (fst x =? n)) l).
Proof.
  intros (K & s & tr & h & I & [D1 D2] & Pm) F.
  assert (F' : In n (map fst (sorted s))) by (eapply Permutation_in; [|exact F]; apply Permutation_map, Permutation_sym; exact Pm).
  destruct (rb_delete_ok _ tcmp t s tr h n (order s) [] I F' ltac:(rewrite app_nil_r; reflexivity) D1) as (t' & tr' & h' & E & I' & It & Dl).
  exists t'. split; [exact E|]. split; [intros a; rewrite (delete_keys _ _ _ E); apply K|]. eexists _, tr', h'. split; [exact I'|].
  split; [split; [exact It|rewrite Dl, D2; reflexivity]|]. cbn [sorted]. apply filter_perm. exact Pm.
Qed.
Lemma holds_number t l : holds_paths t l -> nr_node t = N.of_nat (length l).
Proof.
  intros (K & s & tr & h & I & D & Pm). rewrite (i_nr _ _ _ _ _ _ I), (Permutation_length (i_perm _ _ _ _ _ _ I)), <- (inv_ids _ _ _ _ _ _ I), map_length.
  rewrite (Permutation_length Pm). reflexivity.
Qed.
Lemma released_ok : forall l c fuel, dll c (units l) -> (length l <= fuel)%nat -> released fuel c (hdo (units l)) (lasto (units l)) = Some (rev l).
Proof.
  intros l. induction l as [|a l IH] using rev_ind; intros c fuel D Hf.
  - destruct fuel; reflexivity.
  - rewrite units_app in *. cbn [units map] in *. rewrite lasto_snoc. cbn [fst]. rewrite app_length in Hf. cbn [length] in Hf.
    destruct fuel as [|fuel]; [lia|]. cbn [released].
    destruct (chain_del_ok _ _ _ _ _ D) as (c' & E3 & D3 & _). rewrite lasto_snoc in E3. cbn [fst] in E3. fold (units l) in *. rewrite E3. cbn [obind]. rewrite app_nil_r in *.
    rewrite IH; [|exact D3|lia]. cbn [obind]. rewrite rev_app_distr. reflexivity.
Qed.
Lemma holds_released t l : holds_paths t l -> exists r, released (limit t) (chain t) (head t) (tail t) = Some r /\ Permutation r (map fst l).
Proof.
  intros (K & s & tr & h & I & D & Pm). exists (rev (order s)). split.
  - rewrite (i_head _ _ _ _ _ _ I), (i_tail _ _ _ _ _ _ I). apply released_ok; [apply (i_dll _ _ _ _ _ _ I)|].
    rewrite (inv_len _ _ _ _ _ _ I), (Permutation_length (i_perm _ _ _ _ _ _ I)). lia.
  - rewrite <- Permutation_rev, (i_perm _ _ _ _ _ _ I), <- (inv_ids _ _ _ _ _ _ I). apply Permutation_map. exact Pm.
Qed.

(** ** Chains and descriptors *)
Lemma chain_put_ok fl l i : (forall j, In j l -> alive fl j = true) -> chain_put fl l i = Some (l ++ [i]).
Proof.
  intros A. unfold chain_put. destruct (rev l) as [|j r] eqn:R.
  - apply (f_equal (@rev nat)) in R. rewrite rev_involutive in R. subst l. reflexivity.
  - rewrite A; [reflexivity|]. apply in_rev. rewrite R. left. reflexivity.
Qed.
Lemma without_notin i l : ~ In i l -> without i l = l.
Proof.
  induction l as [|j l IH]; intros H; [reflexivity|]. cbn [without filter]. destruct (Nat.eqb_spec j i) as [->|Ne]; [exfalso; apply H; left; reflexivity|].
  cbn [negb]. f_equal. apply IH. intros X. apply H. right. exact X.
Qed.
Lemma without_in i l j : In j (without i l) <-> In j l /\ j <> i.
Proof. unfold without. rewrite filter_In, negb_true_iff, Nat.eqb_neq. reflexivity. Qed.
Lemma chain_take_ok fl i : forall l, (forall j, In j l -> alive fl j = true) -> NoDup l -> In i l -> chain_take fl true l i = Some (without i l).
Proof.
  induction l as [|j l IH]; intros A ND H; [destruct H|]. cbn [chain_take without filter]. inversion ND as [|x y N1 N2]; subst.
  destruct (Nat.eqb_spec j i) as [->|Ne]; cbn [negb].
  - fold (without i l). rewrite without_notin by auto. destruct l as [|k l]; [reflexivity|]. rewrite (A k) by (right; left; reflexivity). reflexivity.
  - destruct H as [H|H]; [congruence|]. rewrite (A j) by (left; reflexivity). rewrite IH; [reflexivity| |exact N2|exact H]. intros k Hk. apply A. right. exact Hk.
Qed.
Lemma fd_close_ok fd : forall l, In fd l -> exists l', fd_close l fd = Some l' /\ Permutation l (fd :: l').
Proof.
  induction l as [|x l IH]; intros H; [destruct H|]. cbn [fd_close]. destruct (N.eqb_spec x fd) as [->|Ne].
  - exists l. split; [reflexivity|apply Permutation_refl].
  - destruct H as [H|H]; [congruence|]. destruct (IH H) as (l' & E & P). rewrite E. exists (x :: l'). split; [reflexivity|]. rewrite P. apply perm_swap.
Qed.

(** ** Entries *)
Definition nodes (k : list entry) : list (N * list N) := map (fun e => (N.of_nat (e_file e) + 1, e_path e)) k.
Lemma recount_file f i k : map e_file (recount f i k) = map e_file k.
Proof. unfold recount. rewrite map_map. apply map_ext. intros e. destruct (_ =? _)%nat; reflexivity. Qed.
Lemma recount_path f i k : map e_path (recount f i k) = map e_path k.
Proof. unfold recount. rewrite map_map. apply map_ext. intros e. destruct (_ =? _)%nat; reflexivity. Qed.
Lemma recount_fd f i k : map e_fd (recount f i k) = map e_fd k.
Proof. unfold recount. rewrite map_map. apply map_ext. intros e. destruct (_ =? _)%nat; reflexivity. Qed.
Lemma recount_nodes f i k : nodes (recount f i k) = nodes k.
Proof. unfold recount, nodes. rewrite map_map. apply map_ext. intros e. destruct (_ =? _)%nat; reflexivity. Qed.
Definition counted (f : nat -> nat) (i : nat) (e : entry) : entry :=
  if Nat.eqb (e_file e) i then mkE (e_path e) (e_file e) (e_fd e) (e_size e) (f (e_users e)) else e.
Lemma recount_in f i k e : In e (recount f i k) <-> exists e0, counted f i e0 = e /\ In e0 k.
Proof. unfold recount. apply in_map_iff. Qed.
Lemma counted_file f i e : e_file (counted f i e) = e_file e.
Proof. unfold counted. destruct (_ =? _)%nat; reflexivity. Qed.
Lemma counted_path f i e : e_path (counted f i e) = e_path e.
Proof. unfold counted. destruct (_ =? _)%nat; reflexivity. Qed.
Lemma recount_none f i k : ~ In i (map e_file k) -> recount f i k = k.
Proof.
  intros H. unfold recount. rewrite <- (map_id k) at 2. apply map_ext_in. intros e He. destruct (Nat.eqb_spec (e_file e) i); [|reflexivity].
  exfalso. apply H. apply in_map_iff. exists e. auto.
Qed.
Lemma nodup_same {A B} (f : A -> B) l x y : NoDup (map f l) -> In x l -> In y l -> f x = f y -> x = y.
Proof.
  induction l as [|z l IH]; intros ND Hx Hy E; [destruct Hx|]. cbn [map] in ND. inversion ND as [|? ? N1 N2]; subst.
  destruct Hx as [->|Hx], Hy as [->|Hy]; auto.
  - exfalso. apply N1. rewrite E. apply in_map. exact Hy.
  - exfalso. apply N1. rewrite <- E. apply in_map. exact Hx.
Qed.
Lemma holds_perm t l l' : Permutation l l' -> holds_paths t l -> holds_paths t l'.
Proof. intros P (K & s & tr & h & I & D & Pm). split; [exact K|]. exists s, tr, h. split; [exact I|]. split; [exact D|]. eapply perm_trans; eauto. Qed.
Lemma with_path_some c p e : with_path c p = Some e -> In e (known c) /\ e_path e = p.
Proof. intros H. apply find_some in H. unfold same_path in H. destruct (list_eq_dec N.eq_dec (e_path e) p); [|destruct H; discriminate]. tauto. Qed.
Lemma with_path_none c p e : with_path c p = None -> In e (known c) -> e_path e <> p.
Proof.
  intros H He. pose proof (find_none _ _ H e He) as X. cbv beta in X. unfold same_path in X. destruct (list_eq_dec N.eq_dec (e_path e) p); [discriminate|assumption].
Qed.
Lemma entry_of_in c i e : NoDup (map e_file (known c)) -> In e (known c) -> e_file e = i -> entry_of c i = Some e.
Proof.
  intros ND He Ei. unfold entry_of. destruct (find _ _) as [e'|] eqn:F.
  - apply find_some in F. destruct F as [F1 F2]. apply Nat.eqb_eq in F2. f_equal. apply (nodup_same e_file (known c)); auto. congruence.
  - exfalso. pose proof (find_none _ _ F e He) as X. cbv beta in X. apply Nat.eqb_neq in X. auto.
Qed.

(** ** The set and the cache *)
Record core (fl : list file) (d : list N) (k : list entry) (made : nat) : Prop := {
  c_len : length fl = made;
  c_file : forall e, In e k -> nth_error fl (e_file e) = Some (mkFile (e_path e) (e_fd e) (N.of_nat (e_users e)) (e_size e) true);
  c_nfile : NoDup (map e_file k);
  c_npath : NoDup (map e_path k);
  c_nfd : NoDup (map e_fd k);
  c_fds : Permutation d (map e_fd k);
  c_ascii : forall e, In e k -> ascii_path (e_path e) = true
}.
Arguments c_len {fl d k made}. Arguments c_file {fl d k made}. Arguments c_nfile {fl d k made}. Arguments c_npath {fl d k made}.
Arguments c_nfd {fl d k made}. Arguments c_fds {fl d k made}. Arguments c_ascii {fl d k made}.
Record agree (max : N) (B : nat) (fs : fileset) (c : cache) : Prop := {
  a_core : core (files fs) (fds fs) (known c) (made c);
  a_tree : holds_paths (tree fs) (nodes (known c));
  a_max : max_file fs = max;
  a_unused : unused fs = waiting c;
  a_nwait : NoDup (waiting c);
  a_wait : forall i, In i (waiting c) <-> exists e, In e (known c) /\ e_file e = i /\ e_users e = 0%nat;
  a_users : forall e, In e (known c) -> (e_users e <= B)%nat
}.
Arguments a_core {max B fs c}. Arguments a_tree {max B fs c}. Arguments a_max {max B fs c}. Arguments a_unused {max B fs c}.
Arguments a_nwait {max B fs c}. Arguments a_wait {max B fs c}. Arguments a_users {max B fs c}.

Lemma core_made fl d k n e : core fl d k n -> In e k -> (e_file e < n)%nat.
Proof. intros C He. rewrite <- (c_len C). apply nth_error_Some. rewrite (c_file C e He). discriminate. Qed.
Lemma core_alive fl d k n i : core fl d k n -> In i (map e_file k) -> alive fl i = true.
Proof. intros C H. apply in_map_iff in H. destruct H as (e & <- & He). unfold alive. rewrite (c_file C e He). reflexivity. Qed.
Lemma wait_known max B fs c i : agree max B fs c -> In i (waiting c) -> In i (map e_file (known c)).
Proof. intros A H. apply (a_wait A) in H. destruct H as (e & He & <- & _). apply in_map. exact He. Qed.
Lemma agree_alive max B fs c i : agree max B fs c -> In i (waiting c) -> alive (files fs) i = true.
Proof. intros A H. apply (core_alive _ _ _ _ _ (a_core A)). eapply wait_known; eauto. Qed.

(** A count changed in the cache and in the file. *)
Lemma core_recount fl d k n e f : core fl d k n -> In e k ->
  core (upd fl (e_file e) (mkFile (e_path e) (e_fd e) (N.of_nat (f (e_users e))) (e_size e) true)) d (recount f (e_file e) k) n.
Proof.
  intros C He. pose proof (core_made _ _ _ _ _ C He) as L. destruct C as [C1 C2 C3 C4 C5 C6 C8]. split.
  - rewrite upd_length. exact C1.
  - intros x Hx. apply recount_in in Hx. destruct Hx as (e0 & <- & H0). rewrite counted_file. unfold counted.
    destruct (Nat.eqb_spec (e_file e0) (e_file e)) as [Eq|Ne].
    + assert (e0 = e) as -> by (apply (nodup_same e_file k); auto). rewrite nth_error_upd_eq by (rewrite C1; exact L). reflexivity.
    + rewrite nth_error_upd_neq by auto. apply C2. exact H0.
  - rewrite recount_file. exact C3.
  - rewrite recount_path. exact C4.
  - rewrite recount_fd. exact C5.
  - rewrite recount_fd. exact C6.
  - intros x Hx. apply recount_in in Hx. destruct Hx as (e0 & <- & H0). rewrite counted_path. apply C8. exact H0.
Qed.

Lemma reference_ok max B fs c e : agree max B fs c -> In e (known c) -> N.of_nat B + 1 < 2 ^ 64 ->
  exists fs', reference fs (e_file e) = Some (fs', Some (e_file e)) /\
    agree max (S B) fs' (mkCache (recount S (e_file e) (known c)) (without (e_file e) (waiting c)) (made c)).
Proof.
  intros A He Bd. pose proof (a_core A) as C. unfold reference. rewrite (c_file C e He). cbn [obind f_live f_refs].
  pose proof (a_users A e He) as Ue.
  assert (U : (if N.of_nat (e_users e) =? 0 then chain_take (files fs) true (unused fs) (e_file e) else Some (unused fs)) = Some (without (e_file e) (waiting c))).
  { rewrite (a_unused A). destruct (N.eqb_spec (N.of_nat (e_users e)) 0) as [Z|Z].
    - apply chain_take_ok; [intros j; apply (agree_alive _ _ _ _ _ A)|apply (a_nwait A)|]. apply (a_wait A). exists e. split; [exact He|]. split; [reflexivity|lia].
    - rewrite without_notin; [reflexivity|]. intros H. apply (a_wait A) in H. destruct H as (e' & H1 & H2 & H3).
      assert (e' = e) as -> by (apply (nodup_same e_file (known c)); auto; apply (c_nfile C)). lia. }
  rewrite U. cbn [obind]. eexists. split; [reflexivity|]. rewrite N.mod_small by lia.
  replace (set_refs _ _) with (mkFile (e_path e) (e_fd e) (N.of_nat (S (e_users e))) (e_size e) true) by (unfold set_refs; cbn [f_path f_fd f_size f_live]; f_equal; lia).
  split; cbn [known waiting made max_file unused files fds tree].
  - apply core_recount; auto.
  - rewrite recount_nodes. apply (a_tree A).
  - apply (a_max A).
  - reflexivity.
  - apply NoDup_filter. apply (a_nwait A).
  - intros i. rewrite without_in, (a_wait A). split.
    + intros [(e0 & H1 & H2 & H3) Ne]. exists (counted S (e_file e) e0). split; [apply recount_in; exists e0; auto|].
      unfold counted. rewrite (proj2 (Nat.eqb_neq _ _)) by congruence. auto.
    + intros (x & Hx & H2 & H3). apply recount_in in Hx. destruct Hx as (e0 & <- & H0). unfold counted in *.
      destruct (Nat.eqb_spec (e_file e0) (e_file e)); cbn [e_users e_file] in *; [discriminate|]. split; [exists e0; auto|congruence].
  - intros x Hx. apply recount_in in Hx. destruct Hx as (e0 & <- & H0). pose proof (a_users A e0 H0). unfold counted. destruct (_ =? _)%nat; cbn [e_users]; lia.
Qed.

Lemma agree_more max B fs c : agree max B fs c -> agree max (S B) fs c.
Proof. intros [A1 A2 A3 A4 A5 A6 A7]. split; auto. Qed.

Lemma nodes_fst k i : In (N.of_nat i + 1) (map fst (nodes k)) <-> In i (map e_file k).
Proof.
  unfold nodes. rewrite map_map. cbn [fst]. rewrite !in_map_iff. split; intros (e & E & H); exists e; split; auto; lia.
Qed.
Lemma nodup_snoc {A} (l : list A) x : NoDup l -> ~ In x l -> NoDup (l ++ [x]).
Proof. intros ND H. apply (Permutation_NoDup (Permutation_cons_append l x)). constructor; auto. Qed.

Lemma open_ok max B fs c p o : agree max B fs c -> allowed c (Open p o) -> N.of_nat B + 1 < 2 ^ 64 ->
  exists fs', file_open fs p o = Some (fs', snd (cache_open c p o)) /\ agree max (S B) fs' (fst (cache_open c p o)).
Proof.
  intros A [Ap Ho] Bd. pose proof (a_core A) as C. unfold file_open, cache_open.
  destruct (holds_search _ _ p (a_tree A)) as (a & E & R); [|exact Ap|].
  { intros a q H. apply in_map_iff in H. destruct H as (e & E & _). injection E as <- _. lia. }
  rewrite E. cbn [obind]. destruct R as [[Z R]|[-> R]].
  - apply in_map_iff in R. destruct R as (e & Eq & He). injection Eq as <- Ep.
    rewrite (proj2 (N.eqb_neq _ _)) by exact Z. destruct (with_path c p) as [e'|] eqn:W.
    + apply with_path_some in W. destruct W as [W1 W2].
      assert (e' = e) as -> by (apply (nodup_same e_path (known c)); [apply (c_npath C)|auto|auto|congruence]).
      replace (N.to_nat (N.of_nat (e_file e) + 1 - 1)) with (e_file e) by lia. apply reference_ok; auto.
    + exfalso. apply (with_path_none _ _ _ W He). exact Ep.
  - cbn [N.eqb]. assert (Nw : forall e, In e (known c) -> e_path e <> p).
    { intros e He Ep. apply (R (N.of_nat (e_file e) + 1)). apply in_map_iff. exists e. rewrite Ep. auto. }
    destruct (with_path c p) as [e'|] eqn:W; [apply with_path_some in W; destruct W as [W1 W2]; exfalso; apply (Nw _ W1 W2)|].
    destruct o as [| |fd size|fd size]; cbn [fst snd].
    + exists fs. split; [reflexivity|apply agree_more; exact A].
    + exists fs. split; [reflexivity|apply agree_more; exact A].
    + destruct Ho.
    + rewrite (a_unused A), chain_put_ok by (intros j; apply (agree_alive _ _ _ _ _ A)). cbn [obind].
      destruct (holds_insert _ _ (N.of_nat (length (files fs)) + 1) p (a_tree A)) as (t & Et & Ht); [lia| |exact Ap|].
      { intros H. apply nodes_fst in H. apply in_map_iff in H. destruct H as (e & Ef & He). pose proof (core_made _ _ _ _ _ C He). rewrite (c_len C) in Ef. lia. }
      rewrite Et. cbn [obind]. set (i := length (files fs)) in *.
      set (e := mkE p i fd size 0). assert (Ei : i = made c) by (apply (c_len C)).
      assert (Nf : ~ In i (map e_file (known c))).
      { intros H. apply in_map_iff in H. destruct H as (x & Ef & Hx). pose proof (core_made _ _ _ _ _ C Hx). lia. }
      assert (Nwt : ~ In i (waiting c)) by (intros H; apply Nf; eapply wait_known; eauto).
      set (c1 := mkCache (known c ++ [e]) (waiting c ++ [i]) (S (made c))).
      assert (A1 : agree max B (mkFS (files fs ++ [mkFile p fd 0 size true]) t (waiting c ++ [i]) (max_file fs) (fd :: fds fs)) c1).
      { split; cbn [max_file unused known waiting made c1 files tree fds].
        - split.
          + rewrite app_length. cbn [length]. fold i. lia.
          + intros x Hx. apply in_app_or in Hx. destruct Hx as [Hx|[<-|[]]].
            * pose proof (core_made _ _ _ _ _ C Hx). rewrite nth_error_app1 by (fold i; lia). apply (c_file C x Hx).
            * cbn [e e_file e_path e_fd e_users e_size]. rewrite nth_error_app2 by (fold i; lia). fold i. rewrite Nat.sub_diag. reflexivity.
          + rewrite map_app. apply nodup_snoc; [apply (c_nfile C)|exact Nf].
          + rewrite map_app. apply nodup_snoc; [apply (c_npath C)|]. intros H. apply in_map_iff in H. destruct H as (x & Ex & Hx). apply (Nw x Hx Ex).
          + rewrite map_app. apply nodup_snoc; [apply (c_nfd C)|exact Ho].
          + rewrite map_app, (c_fds C). apply (Permutation_cons_append (map e_fd (known c)) fd).
          + intros x Hx. apply in_app_or in Hx. destruct Hx as [Hx|[<-|[]]]; [apply (c_ascii C x Hx)|exact Ap].
        - eapply holds_perm; [|exact Ht]. unfold nodes. rewrite map_app. apply (Permutation_cons_append (nodes (known c)) (N.of_nat i + 1, p)).
        - apply (a_max A).
        - reflexivity.
        - apply nodup_snoc; [apply (a_nwait A)|exact Nwt].
        - intros j. rewrite in_app_iff, (a_wait A). split.
          + intros [(x & Hx & H2 & H3)|[<-|[]]]; [exists x|exists e]; rewrite in_app_iff; cbn [In]; auto.
          + intros (x & Hx & H2 & H3). apply in_app_or in Hx. destruct Hx as [Hx|[<-|[]]]; [left; exists x; auto|right; left; exact H2].
        - intros x Hx. apply in_app_or in Hx. destruct Hx as [Hx|[<-|[]]]; [apply (a_users A x Hx)|cbn [e e_users]; lia]. }
      destruct (reference_ok max B _ c1 e A1) as (fs' & E1 & A2); [cbn [known c1]; apply in_or_app; right; left; reflexivity|exact Bd|].
      exists fs'. rewrite <- Ei. split; [exact E1|]. cbn [known waiting made c1 e e_file] in A2.
      replace (recount S i (known c ++ [e])) with (known c ++ [mkE p i fd size 1]) in A2.
      2:{ unfold recount. rewrite map_app. fold (recount S i (known c)). rewrite recount_none by exact Nf. cbn [map e e_file]. rewrite Nat.eqb_refl. reflexivity. }
      replace (without i (waiting c ++ [i])) with (waiting c) in A2.
      2:{ unfold without. rewrite filter_app. fold (without i (waiting c)). rewrite without_notin by exact Nwt. cbn [filter]. rewrite Nat.eqb_refl. cbn [negb]. rewrite app_nil_r. reflexivity. }
      rewrite <- Ei in A2. exact A2.
Qed.

(** ** Dropping a file *)
Definition others (i : nat) (k : list entry) : list entry := filter (fun e => negb (Nat.eqb (e_file e) i)) k.
Lemma others_in i k e : In e (others i k) <-> In e k /\ e_file e <> i.
Proof. unfold others. rewrite filter_In, negb_true_iff, Nat.eqb_neq. reflexivity. Qed.
Lemma others_nodup {A} (f : entry -> A) i k : NoDup (map f k) -> NoDup (map f (others i k)).
Proof.
  induction k as [|e k IH]; intros ND; [exact ND|]. cbn [map] in ND. inversion ND as [|? ? N1 N2]; subst. cbn [others filter]. fold (others i k).
  destruct (negb _); [|auto]. cbn [map]. constructor; [|auto]. intros H. apply N1. apply in_map_iff in H. destruct H as (x & Ex & Hx). apply others_in in Hx.
  apply in_map_iff. exists x. tauto.
Qed.
Lemma others_id i k : ~ In i (map e_file k) -> others i k = k.
Proof.
  induction k as [|e k IH]; intros H; [reflexivity|]. cbn [others filter map] in *. fold (others i k). destruct (Nat.eqb_spec (e_file e) i) as [Eq|Ne].
  - exfalso. apply H. left. exact Eq.
  - cbn [negb]. f_equal. apply IH. intros X. apply H. right. exact X.
Qed.
Lemma others_perm k e : NoDup (map e_file k) -> In e k -> Permutation k (e :: others (e_file e) k).
Proof.
  induction k as [|x k IH]; intros ND H; [destruct H|]. cbn [map] in ND. inversion ND as [|? ? N1 N2]; subst. cbn [others filter]. fold (others (e_file e) k).
  destruct H as [->|H].
  - rewrite Nat.eqb_refl. cbn [negb]. rewrite others_id by exact N1. apply Permutation_refl.
  - destruct (Nat.eqb_spec (e_file x) (e_file e)) as [Eq|Ne]; [exfalso; apply N1; rewrite Eq; apply in_map; exact H|]. cbn [negb].
    rewrite (IH N2 H) at 1. apply perm_swap.
Qed.
Lemma nodes_others i k : nodes (others i k) = filter (fun x => negb (fst x =? N.of_nat i + 1)) (nodes k).
Proof.
  induction k as [|e k IH]; [reflexivity|]. cbn [others filter nodes map fst]. fold (others i k). fold (nodes k).
  replace (N.of_nat (e_file e) + 1 =? N.of_nat i + 1) with (Nat.eqb (e_file e) i) by (destruct (Nat.eqb_spec (e_file e) i), (N.eqb_spec (N.of_nat (e_file e) + 1) (N.of_nat i + 1)); auto; lia).
  destruct (negb _); [cbn [map nodes]; f_equal; exact IH|exact IH].
Qed.
Lemma free_ok fs k n e : core (files fs) (fds fs) k n -> In e k ->
  exists fl d, file_free fs (e_file e) = Some (mkFS fl (tree fs) (unused fs) (max_file fs) d) /\ core fl d (others (e_file e) k) n.
Proof.
  intros C He. unfold file_free. rewrite (c_file C e He). cbn [obind f_live f_fd].
  destruct (fd_close_ok (e_fd e) (fds fs)) as (d & Ed & Pd).
  { eapply Permutation_in; [apply Permutation_sym; apply (c_fds C)|]. apply in_map. exact He. }
  rewrite Ed. cbn [obind]. eexists _, d. split; [reflexivity|]. split.
  - rewrite upd_length. apply (c_len C).
  - intros x Hx. apply others_in in Hx. destruct Hx as [Hx Ne]. rewrite nth_error_upd_neq by auto. apply (c_file C x Hx).
  - apply others_nodup, (c_nfile C).
  - apply others_nodup, (c_npath C).
  - apply others_nodup, (c_nfd C).
  - apply (Permutation_cons_inv (a := e_fd e)). rewrite <- Pd, (c_fds C). apply (Permutation_map e_fd (others_perm k e (c_nfile C) He)).
  - intros x Hx. apply others_in in Hx. apply (c_ascii C x). tauto.
Qed.

Lemma close_ok max B fs c e : agree max B fs c -> In e (known c) -> (0 < e_users e)%nat -> N.of_nat B < 2 ^ 64 ->
  exists fs', file_close fs (e_file e) = Some fs' /\ agree max B fs' (cache_close max c (e_file e)).
Proof.
  intros A He Hu Bd. pose proof (a_core A) as C. pose proof (a_users A e He) as Ue. unfold file_close, cache_close.
  rewrite (entry_of_in c (e_file e) e (c_nfile C) He eq_refl). rewrite (c_file C e He). cbn [obind f_live f_refs].
  replace ((N.of_nat (e_users e) + 2 ^ 64 - 1) mod 2 ^ 64) with (N.of_nat (pred (e_users e))).
  2:{ replace (N.of_nat (e_users e) + 2 ^ 64 - 1) with (N.of_nat (pred (e_users e)) + 1 * 2 ^ 64) by lia. rewrite N.mod_add by discriminate. rewrite N.mod_small; lia. }
  set (i := e_file e) in *. set (fl := upd _ _ _).
  assert (C1 : core fl (fds fs) (recount pred i (known c)) (made c)) by (apply (core_recount _ _ _ _ e pred C He)).
  assert (Us : forall x, In x (recount pred i (known c)) -> (e_users x <= B)%nat).
  { intros x Hx. apply recount_in in Hx. destruct Hx as (e0 & <- & H0). pose proof (a_users A e0 H0). unfold counted. destruct (_ =? _)%nat; cbn [e_users]; lia. }
  assert (T1 : holds_paths (tree fs) (nodes (recount pred i (known c)))) by (rewrite recount_nodes; apply (a_tree A)).
  assert (Nwt : ~ In i (waiting c)).
  { intros H. apply (a_wait A) in H. destruct H as (x & Hx & Ef & Zx). assert (x = e) as -> by (apply (nodup_same e_file (known c)); auto; apply (c_nfile C)). lia. }
  assert (W : forall j, (exists x, In x (recount pred i (known c)) /\ e_file x = j /\ e_users x = 0%nat) <-> (In j (waiting c) \/ (j = i /\ e_users e = 1%nat))).
  { intros j. rewrite (a_wait A). split.
    - intros (x & Hx & Ef & Zx). apply recount_in in Hx. destruct Hx as (e0 & <- & H0). rewrite counted_file in Ef. unfold counted in Zx.
      destruct (Nat.eqb_spec (e_file e0) i) as [Eq|Ne]; cbn [e_users] in Zx.
      + assert (e0 = e) as -> by (apply (nodup_same e_file (known c)); auto; apply (c_nfile C)). right. split; [congruence|lia].
      + left. exists e0. auto.
    - intros [(x & Hx & Ef & Zx)|[-> Z]].
      + exists (counted pred i x). split; [apply recount_in; exists x; auto|]. rewrite counted_file. split; [exact Ef|]. unfold counted. destruct (_ =? _)%nat; cbn [e_users]; lia.
      + exists (counted pred i e). split; [apply recount_in; exists e; auto|]. rewrite counted_file. split; [reflexivity|]. unfold counted. fold i. rewrite Nat.eqb_refl. cbn [e_users]. lia. }
  destruct (Nat.eqb_spec (e_users e) 1) as [One|Many].
  - replace (0 <? N.of_nat (pred (e_users e))) with false by (symmetry; apply N.ltb_ge; lia). cbn [files tree unused max_file fds].
    assert (Kn : forall j, In j (waiting c ++ [i]) -> In j (map e_file (recount pred i (known c)))).
    { intros j Hj. rewrite recount_file. apply in_app_or in Hj. destruct Hj as [Hj|[<-|[]]]; [eapply wait_known; eauto|apply in_map; exact He]. }
    rewrite (a_unused A), chain_put_ok by (intros j Hj; apply (core_alive _ _ _ _ _ C1), Kn, in_or_app; left; exact Hj). cbn [obind].
    rewrite (holds_number _ _ T1), (a_max A). unfold nodes at 1. rewrite map_length.
    assert (ND : NoDup (waiting c ++ [i])) by (apply nodup_snoc; [apply (a_nwait A)|exact Nwt]).
    assert (W' : forall j, In j (waiting c ++ [i]) <-> exists x, In x (recount pred i (known c)) /\ e_file x = j /\ e_users x = 0%nat).
    { intros j. rewrite W, in_app_iff. cbn [In]. split; [intros [H|[<-|[]]]; auto|intros [H|[-> _]]; auto]. }
    destruct (max <? _) eqn:M.
    + destruct (waiting c ++ [i]) as [|j w] eqn:Ew; [destruct (waiting c); discriminate|]. cbn [hd_error obind].
      rewrite chain_take_ok; [|intros x Hx; apply (core_alive _ _ _ _ _ C1), Kn; exact Hx|exact ND|left; reflexivity]. cbn [obind].
      inversion ND as [|? ? N1 N2]; subst. replace (without j (j :: w)) with w by (cbn [without filter]; rewrite Nat.eqb_refl; cbn [negb]; fold (without j w); rewrite without_notin by exact N1; reflexivity).
      destruct (holds_delete _ _ (N.of_nat j + 1) T1) as (t & Et & Ht); [apply nodes_fst, Kn; left; reflexivity|]. rewrite Et. cbn [obind].
      rewrite <- nodes_others in Ht. assert (Hj : In j (map e_file (recount pred i (known c)))) by (apply Kn; left; reflexivity).
      apply in_map_iff in Hj. destruct Hj as (x & Ex & Hx).
      destruct (free_ok (mkFS fl t w (max_file fs) (fds fs)) _ _ x C1 Hx) as (fl' & d' & Ef & C2). cbn [tree unused max_file] in Ef.
      rewrite Ex in *. rewrite (a_max A) in Ef. rewrite Ef. eexists. split; [reflexivity|]. split; cbn [files tree unused max_file fds known waiting made]; auto.
      * intros q. split.
        -- intros Hq. destruct (proj1 (W' q) (or_intror Hq)) as (y & Hy & Eq & Zq). exists y. split; [|auto]. apply others_in. split; [exact Hy|]. intros Ej. subst. rewrite Ej in Hq. auto.
        -- intros (y & Hy & Eq & Zq). apply others_in in Hy. destruct Hy as [Hy Ne]. destruct (proj2 (W' q) (ex_intro _ y (conj Hy (conj Eq Zq)))) as [H|H]; [congruence|exact H].
      * intros y Hy. apply others_in in Hy. apply Us. tauto.
    + eexists. split; [reflexivity|]. split; cbn [files tree unused max_file fds known waiting made]; auto.
  - replace (0 <? N.of_nat (pred (e_users e))) with true by (symmetry; apply N.ltb_lt; lia). eexists. split; [reflexivity|].
    split; cbn [files tree unused max_file fds known waiting made]; auto; try apply A.
    intros j. rewrite W. split; [auto|]. intros [H|[_ H]]; [exact H|congruence].
Qed.

Lemma step_ok max B fs c x : agree max B fs c -> allowed c x -> N.of_nat B + 1 < 2 ^ 64 ->
  exists fs', step fs x = Some (fs', snd (cache_step max c x)) /\ agree max (S B) fs' (fst (cache_step max c x)).
Proof.
  intros A Al Bd. destruct x as [p o|i]; cbn [step cache_step].
  - apply open_ok; auto.
  - destruct Al as (e & He & <- & Hu). destruct (close_ok max B fs c e A He Hu ltac:(lia)) as (fs' & E & A'). rewrite E. cbn [obind fst snd].
    exists fs'. split; [reflexivity|apply agree_more; exact A'].
Qed.
Lemma run_ok max : forall xs B fs c, agree max B fs c -> allowed_run max c xs -> N.of_nat B + N.of_nat (length xs) < 2 ^ 64 ->
  exists fs', run fs xs = Some (fs', snd (cache_run max c xs)) /\ agree max (B + length xs) fs' (fst (cache_run max c xs)).
Proof.
  induction xs as [|x xs IH]; intros B fs c A Al Bd.
  - exists fs. cbn [length cache_run fst snd run]. rewrite Nat.add_0_r. auto.
  - destruct Al as [Al Ar]. cbn [length] in *. destruct (step_ok max B fs c x A Al ltac:(lia)) as (fs1 & E1 & A1).
    destruct (IH (S B) fs1 _ A1 Ar ltac:(lia)) as (fs' & E2 & A2). exists fs'. cbn [run cache_run]. rewrite E1. cbn [obind fst snd].
    destruct (cache_step max c x) as [c1 r]. cbn [fst snd] in *. rewrite E2. cbn [obind fst snd]. destruct (cache_run max c1 xs) as [c2 rs]. cbn [fst snd] in *.
    split; [reflexivity|]. replace (B + S (length xs))%nat with (S B + length xs)%nat by lia. exact A2.
Qed.
Lemma init_ok max : agree max 0 (fileset_init max) empty.
Proof.
  split; cbn.
  - split; cbn; [reflexivity|intros e []|constructor|constructor|constructor|constructor|intros e []].
  - apply holds_new. reflexivity.
  - reflexivity.
  - reflexivity.
  - constructor.
  - intros i. split; [intros []|intros (e & [] & _)].
  - intros e [].
Qed.
Lemma free_all_ok : forall l fs k n, core (files fs) (fds fs) k n -> Permutation l (map fst (nodes k)) ->
  exists fl, free_all fs l = Some (mkFS fl (tree fs) (unused fs) (max_file fs) []) /\ length fl = n.
Proof.
  induction l as [|a l IH]; intros fs k n C P.
  - apply Permutation_nil in P. destruct k; [|discriminate]. exists (files fs). cbn [free_all]. pose proof (c_fds C) as Pf. apply Permutation_sym, Permutation_nil in Pf.
    split; [destruct fs; cbn in *; congruence|apply (c_len C)].
  - assert (H : In a (map fst (nodes k))) by (eapply Permutation_in; [exact P|left; reflexivity]).
    unfold nodes in H. rewrite map_map in H. cbn [fst] in H. apply in_map_iff in H. destruct H as (e & <- & He). cbn [free_all].
    replace (N.to_nat (N.of_nat (e_file e) + 1 - 1)) with (e_file e) by lia.
    destruct (free_ok fs k n e C He) as (fl & d & E & C'). rewrite E. cbn [obind].
    destruct (IH (mkFS fl (tree fs) (unused fs) (max_file fs) d) _ n C') as (fl' & E' & L').
    + apply (Permutation_cons_inv (a := N.of_nat (e_file e) + 1)). rewrite P.
      apply (Permutation_map fst (Permutation_map (fun e => (N.of_nat (e_file e) + 1, e_path e)) (others_perm k e (c_nfile C) He))).
    + exists fl'. auto.
Qed.
Lemma destroy_ok max B fs c : agree max B fs c -> exists fs', fileset_destroy fs = Some fs' /\ fds fs' = [].
Proof.
  intros A. unfold fileset_destroy. destruct (holds_released _ _ (a_tree A)) as (r & E & P). rewrite E. cbn [obind].
  destruct (free_all_ok r fs _ _ (a_core A) P) as (fl & E' & _). rewrite E'. eexists. split; reflexivity.
Qed.

(** ** What is true of a cache *)
Definition users (c : cache) (i : nat) : nat := match entry_of c i with Some e => e_users e | None => 0 end.
Lemma entry_of_some c i e : entry_of c i = Some e -> In e (known c) /\ e_file e = i.
Proof. intros H. apply find_some in H. rewrite Nat.eqb_eq in H. exact H. Qed.
Lemma entry_of_none c i e : entry_of c i = None -> In e (known c) -> e_file e <> i.
Proof. intros H He. pose proof (find_none _ _ H e He) as X. cbv beta in X. apply Nat.eqb_neq in X. exact X. Qed.
Lemma users_is c e : NoDup (map e_file (known c)) -> In e (known c) -> users c (e_file e) = e_users e.
Proof. intros ND He. unfold users. rewrite (entry_of_in c (e_file e) e ND He eq_refl). reflexivity. Qed.
Lemma users_none c i : ~ In i (map e_file (known c)) -> users c i = 0%nat.
Proof.
  intros H. unfold users. destruct (entry_of c i) as [e|] eqn:E; [|reflexivity]. apply entry_of_some in E. destruct E as [E1 <-]. exfalso. apply H. apply in_map. exact E1.
Qed.
Lemma users_recount f i k w n j : NoDup (map e_file k) ->
  users (mkCache (recount f i k) w n) j = if Nat.eqb j i then (if in_dec Nat.eq_dec i (map e_file k) then f (users (mkCache k w n) j) else 0%nat) else users (mkCache k w n) j.
Proof.
  intros ND. destruct (in_dec Nat.eq_dec j (map e_file k)) as [H|H].
  - apply in_map_iff in H. destruct H as (e & <- & He).
    assert (H1 : In (counted f i e) (known (mkCache (recount f i k) w n))) by (apply recount_in; exists e; auto).
    pose proof (users_is (mkCache (recount f i k) w n) (counted f i e)) as U. cbn [known] in *. rewrite recount_file, counted_file in U. rewrite (U ND H1).
    rewrite (users_is (mkCache k w n) e ND He). unfold counted. destruct (Nat.eqb_spec (e_file e) i) as [<-|Ne]; [|reflexivity].
    destruct (in_dec _ _ _) as [_|C]; [reflexivity|]. exfalso. apply C. apply in_map. exact He.
  - rewrite users_none by (cbn [known]; rewrite recount_file; exact H). rewrite users_none by exact H.
    destruct (Nat.eqb_spec j i) as [<-|Ne]; [|reflexivity]. destruct (in_dec _ _ _); [contradiction|reflexivity].
Qed.
Lemma users_waiting k w w' n n' j : users (mkCache k w n) j = users (mkCache k w' n') j.
Proof. reflexivity. Qed.

Lemma step_users max B fs c x i : agree max B fs c -> allowed c x ->
  (users (fst (cache_step max c x)) i + closes i [x] = users c i + opens i [x] [snd (cache_step max c x)])%nat.
Proof.
  intros A Al. pose proof (a_core A) as C. pose proof (c_nfile C) as ND. destruct x as [p o|j]; cbn [cache_step fst snd closes opens].
  - unfold cache_open. destruct (with_path c p) as [e|] eqn:W.
    + apply with_path_some in W. destruct W as [He _]. cbn [fst snd]. rewrite users_recount by exact ND. rewrite (Nat.eqb_sym (e_file e)).
      destruct (Nat.eqb_spec i (e_file e)) as [->|Ne].
      * destruct (in_dec _ _ _) as [_|Cn]; [|exfalso; apply Cn; apply in_map; exact He]. change (users (mkCache (known c) _ _)) with (users c). lia.
      * change (users (mkCache (known c) _ _)) with (users c). lia.
    + destruct o as [| |fd size|fd size]; cbn [fst snd]; try lia.
      assert (Nf : ~ In (made c) (map e_file (known c))) by (intros H; apply in_map_iff in H; destruct H as (x & Ef & Hx); pose proof (core_made _ _ _ _ _ C Hx); lia).
      assert (ND' : NoDup (map e_file (known c ++ [mkE p (made c) fd size 1]))) by (rewrite map_app; apply nodup_snoc; auto).
      set (c1 := mkCache (known c ++ [mkE p (made c) fd size 1]) (waiting c) (S (made c))).
      destruct (in_dec Nat.eq_dec i (map e_file (known c))) as [H|H].
      * apply in_map_iff in H. destruct H as (e & <- & He). rewrite (users_is c1 e) by (auto; cbn [known c1]; apply in_or_app; auto). rewrite (users_is c e ND He).
        pose proof (core_made _ _ _ _ _ C He). rewrite (proj2 (Nat.eqb_neq _ _)) by lia. lia.
      * rewrite (users_none c i H). destruct (Nat.eqb_spec (made c) i) as [<-|Ne].
        -- pose proof (users_is c1 (mkE p (made c) fd size 1) ND') as U. cbn [e_file e_users] in U. rewrite U by (cbn [known c1]; apply in_or_app; right; left; reflexivity). reflexivity.
        -- rewrite users_none; [reflexivity|]. cbn [known c1]. rewrite map_app, in_app_iff. cbn [map In e_file]. tauto.
  - destruct Al as (e & He & <- & Hu). unfold cache_close. rewrite (entry_of_in c (e_file e) e ND He eq_refl).
    assert (R : forall w n, (users (mkCache (recount pred (e_file e) (known c)) w n) i + ((if Nat.eqb (e_file e) i then 1 else 0) + 0) = users c i + 0)%nat).
    { intros w n. rewrite users_recount by exact ND. change (users (mkCache (known c) _ _)) with (users c). rewrite (Nat.eqb_sym (e_file e)).
      destruct (Nat.eqb_spec i (e_file e)) as [->|Ne]; [|lia]. destruct (in_dec _ _ _) as [_|Cn]; [|exfalso; apply Cn; apply in_map; exact He].
      rewrite (users_is c e ND He). lia. }
    destruct (Nat.eqb_spec (e_users e) 1) as [One|Many]; [|apply R]. destruct (max <? _); [|apply R].
    destruct (waiting c ++ [e_file e]) as [|j w] eqn:Ew; [apply R|]. fold (others j (recount pred (e_file e) (known c))).
    rewrite <- (R w (made c)). f_equal. set (k := recount pred (e_file e) (known c)) in *.
    assert (NDk : NoDup (map e_file k)) by (unfold k; rewrite recount_file; exact ND).
    destruct (in_dec Nat.eq_dec i (map e_file (others j k))) as [H|H].
    + apply in_map_iff in H. destruct H as (x & <- & Hx). pose proof Hx as Hx'. apply others_in in Hx'. rewrite (users_is (mkCache (others j k) w (made c)) x (others_nodup e_file j k NDk) Hx).
      rewrite (users_is (mkCache k w (made c)) x NDk (proj1 Hx')). reflexivity.
    + rewrite users_none by exact H. symmetry. destruct (in_dec Nat.eq_dec i (map e_file k)) as [Hk|Hk]; [|apply users_none; exact Hk].
      apply in_map_iff in Hk. destruct Hk as (x & <- & Hx). rewrite (users_is (mkCache k w (made c)) x NDk Hx).
      destruct (Nat.eq_dec (e_file x) j) as [Ej|Ne]; [|exfalso; apply H; apply in_map; apply others_in; auto].
      apply recount_in in Hx. destruct Hx as (e0 & <- & H0). assert (Hj : In j (waiting c ++ [e_file e])) by (rewrite Ew; left; reflexivity). clear H.
      rewrite counted_file in Ej. unfold counted. destruct (Nat.eqb_spec (e_file e0) (e_file e)) as [Eq|Ne].
      * assert (e0 = e) as -> by (apply (nodup_same e_file (known c)); auto). cbn [e_users]. lia.
      * apply in_app_or in Hj. destruct Hj as [Hj|[Hj|[]]]; [|congruence]. apply (a_wait A) in Hj. destruct Hj as (y & Hy & Ey & Zy).
        assert (y = e0) as -> by (apply (nodup_same e_file (known c)); auto; congruence). exact Zy.
Qed.
Lemma opens_cons i x xs o os : opens i (x :: xs) (o :: os) = (opens i [x] [o] + opens i xs os)%nat.
Proof. destruct x, o; cbn [opens]; lia. Qed.
Lemma closes_cons i x xs : closes i (x :: xs) = (closes i [x] + closes i xs)%nat.
Proof. destruct x; cbn [closes]; lia. Qed.
Lemma run_users max i : forall xs B fs c, agree max B fs c -> allowed_run max c xs -> N.of_nat B + N.of_nat (length xs) < 2 ^ 64 ->
  (users (fst (cache_run max c xs)) i + closes i xs = users c i + opens i xs (snd (cache_run max c xs)))%nat.
Proof.
  induction xs as [|x xs IH]; intros B fs c A Al Bd; [reflexivity|]. destruct Al as [Al Ar]. cbn [length] in Bd.
  destruct (step_ok max B fs c x A Al ltac:(lia)) as (fs1 & _ & A1). pose proof (IH _ _ _ A1 Ar ltac:(lia)) as H. pose proof (step_users max B fs c x i A Al) as S1.
  cbn [cache_run]. destruct (cache_step max c x) as [c1 r]. cbn [fst snd] in *. destruct (cache_run max c1 xs) as [c2 rs]. cbn [fst snd] in *.
  rewrite opens_cons, closes_cons. lia.
Qed.

(** Files keep their paths, and their numbers are not used again. *)
Lemma step_paths max c x e : In e (known (fst (cache_step max c x))) ->
  (made c <= made (fst (cache_step max c x)))%nat /\
  ((e_file e < made c)%nat -> exists e0, In e0 (known c) /\ e_file e0 = e_file e /\ e_path e0 = e_path e /\ e_fd e0 = e_fd e /\ e_size e0 = e_size e).
Proof.
  assert (R : forall f i k, In e (recount f i k) -> exists e0, In e0 k /\ e_file e0 = e_file e /\ e_path e0 = e_path e /\ e_fd e0 = e_fd e /\ e_size e0 = e_size e).
  { intros f i k H. apply recount_in in H. destruct H as (e0 & <- & H0). exists e0. unfold counted. destruct (_ =? _)%nat; auto. }
  destruct x as [p o|i]; cbn [cache_step].
  - unfold cache_open. destruct (with_path c p) as [e1|].
    + cbn [fst known made]. intros H. split; [lia|]. intros _. eapply R. exact H.
    + destruct o; cbn [fst known made]; intros H; (split; [lia|]); intros L; try (exists e; auto; fail).
      apply in_app_or in H. destruct H as [H|[<-|[]]]; [exists e; auto|cbn [e_file] in L; lia].
  - cbn [fst]. unfold cache_close. destruct (entry_of c i); [|intros H; split; [lia|intros _; exists e; auto]].
    destruct (_ =? _)%nat; [|cbn [known made]; intros H; split; [lia|intros _; eapply R; exact H]].
    destruct (max <? _); [|cbn [known made]; intros H; split; [lia|intros _; eapply R; exact H]].
    destruct (waiting c ++ [i]); cbn [known made]; intros H; (split; [lia|]); intros _.
    + eapply R; exact H.
    + apply filter_In in H. eapply R. apply H.
Qed.
Lemma step_made max c x : (made c <= made (fst (cache_step max c x)))%nat.
Proof.
  destruct x as [p o|i]; cbn [cache_step fst].
  - unfold cache_open. destruct (with_path c p); [cbn [fst made]; lia|]. destruct o; cbn [fst made]; lia.
  - unfold cache_close. destruct (entry_of c i); [|lia]. destruct (_ =? _)%nat; [|cbn [made]; lia]. destruct (max <? _); [|cbn [made]; lia].
    destruct (waiting c ++ [i]); cbn [made]; lia.
Qed.
Lemma run_keeps max : forall xs c e, In e (known (fst (cache_run max c xs))) -> (e_file e < made c)%nat ->
  exists e0, In e0 (known c) /\ e_file e0 = e_file e /\ e_path e0 = e_path e /\ e_fd e0 = e_fd e /\ e_size e0 = e_size e.
Proof.
  induction xs as [|x xs IH]; intros c e H L; [exists e; auto|]. cbn [cache_run] in H. pose proof (step_made max c x) as M. pose proof (step_paths max c x) as P.
  destruct (cache_step max c x) as [c1 r]. cbn [fst] in *. specialize (IH c1 e). destruct (cache_run max c1 xs) as [c2 rs]. cbn [fst] in *.
  destruct (IH H ltac:(lia)) as (e1 & H1 & H2 & H3 & H4 & H5). destruct (proj2 (P e1 H1) ltac:(lia)) as (e0 & G1 & G2 & G3 & G4 & G5).
  exists e0. repeat split; congruence.
Qed.
Lemma run_paths max : forall xs B fs c, agree max B fs c -> allowed_run max c xs -> N.of_nat B + N.of_nat (length xs) < 2 ^ 64 ->
  forall e p o, In e (known (fst (cache_run max c xs))) -> In (Open p o, Some (e_file e)) (combine xs (snd (cache_run max c xs))) -> e_path e = p.
Proof.
  induction xs as [|x xs IH]; intros B fs c A Al Bd e p o He H; [destruct H|]. destruct Al as [Al Ar]. cbn [length] in Bd.
  destruct (step_ok max B fs c x A Al ltac:(lia)) as (fs1 & _ & A1). specialize (IH _ _ _ A1 Ar ltac:(lia) e p o).
  pose proof (run_keeps max xs (fst (cache_step max c x)) e) as K. cbn [cache_run] in *. destruct (cache_step max c x) as [c1 r] eqn:E1. cbn [fst snd] in *.
  destruct (cache_run max c1 xs) as [c2 rs]. cbn [fst snd] in *. cbn [combine] in H. destruct H as [H|H]; [|auto].
  injection H as -> ->. cbn [cache_step] in E1.
  assert (X : exists e1, In e1 (known c1) /\ e_file e1 = e_file e /\ e_path e1 = p).
  { unfold cache_open in E1. destruct (with_path c p) as [e0|] eqn:W.
    - apply with_path_some in W. destruct W as [W1 W2]. injection E1 as <- E2. exists (counted S (e_file e0) e0). cbn [known].
      rewrite counted_file, counted_path. split; [apply recount_in; exists e0; auto|auto].
    - destruct o; inversion E1. eexists. cbn [known]. split; [apply in_or_app; right; left; reflexivity|]. cbn [e_file e_path]. auto. }
  destruct X as (e1 & X1 & X2 & <-). pose proof (core_made _ _ _ _ _ (a_core A1) X1) as L. destruct (K He ltac:(lia)) as (e0 & K1 & K2 & K3 & _).
  assert (e0 = e1) as -> by (apply (nodup_same e_file (known c1)); auto; [apply (c_nfile (a_core A1))|congruence]). auto.
Qed.

(** The bound. *)
Definition bounded (max : N) (c : cache) : Prop := N.of_nat (length (known c)) <= max + N.of_nat (length (in_use c)).
Definition used (k : list entry) : list entry := filter (fun e => Nat.ltb 0 (e_users e)) k.
Lemma used_perm k k' : Permutation k k' -> length (used k) = length (used k').
Proof. intros P. apply Permutation_length, filter_perm. exact P. Qed.
Lemma used_same k k' : map e_users k = map e_users k' -> length (used k) = length (used k').
Proof.
  revert k'. induction k as [|e k IH]; intros [|e' k'] E; try discriminate; [reflexivity|]. cbn [map] in E. injection E as E1 E2. cbn [used filter].
  fold (used k). fold (used k'). rewrite E1. destruct (0 <? e_users e')%nat; cbn [length]; rewrite (IH _ E2); reflexivity.
Qed.
Lemma used_recount f k e : NoDup (map e_file k) -> In e k ->
  (length (used (recount f (e_file e) k)) + (if Nat.ltb 0 (e_users e) then 1 else 0) = length (used k) + (if Nat.ltb 0 (f (e_users e)) then 1 else 0))%nat.
Proof.
  intros ND He. rewrite (used_perm _ _ (others_perm k e ND He)). unfold recount at 1.
  rewrite (used_perm _ _ (Permutation_map _ (others_perm k e ND He))). cbn [map]. fold (recount f (e_file e) (others (e_file e) k)).
  rewrite recount_none by (intros H; apply in_map_iff in H; destruct H as (x & Ex & Hx); apply others_in in Hx; tauto).
  rewrite Nat.eqb_refl. cbn [used filter e_users]. fold (used (others (e_file e) k)). destruct (0 <? e_users e)%nat, (0 <? f (e_users e))%nat; cbn [length]; lia.
Qed.
Lemma step_bounded max B fs c x : agree max B fs c -> allowed c x -> bounded max c -> bounded max (fst (cache_step max c x)).
Proof.
  intros A Al H. pose proof (a_core A) as C. pose proof (c_nfile C) as ND. unfold bounded, in_use in *. fold (used (known c)) in H. destruct x as [p o|j]; cbn [cache_step fst].
  - unfold cache_open. destruct (with_path c p) as [e|] eqn:W.
    + apply with_path_some in W. destruct W as [He _]. cbn [fst known]. fold (used (recount S (e_file e) (known c))). pose proof (used_recount S _ _ ND He) as U.
      unfold recount at 1. rewrite map_length. cbn [Nat.ltb Nat.leb] in U. destruct (e_users e); lia.
    + destruct o; cbn [fst known]; try exact H. fold (used (known c ++ [mkE p (made c) fd size 1])). unfold used. rewrite filter_app. fold (used (known c)). cbn [filter e_users Nat.ltb Nat.leb].
      rewrite !app_length. cbn [length]. lia.
  - destruct Al as (e & He & <- & Hu). unfold cache_close. rewrite (entry_of_in c (e_file e) e ND He eq_refl). pose proof (used_recount pred _ _ ND He) as U.
    rewrite (proj2 (Nat.ltb_lt _ _) Hu) in U. assert (L : length (recount pred (e_file e) (known c)) = length (known c)) by apply map_length.
    set (k := recount pred (e_file e) (known c)) in *.
    destruct (Nat.eqb_spec (e_users e) 1) as [One|Many].
    + rewrite One in U. cbn [pred Nat.ltb Nat.leb] in U. destruct (N.ltb_spec max (N.of_nat (length k))) as [M|M].
      * destruct (waiting c ++ [e_file e]) as [|j w] eqn:Ew; [destruct (waiting c); discriminate|]. cbn [known]. fold (others j k). fold (used (others j k)).
        assert (Hj : exists y, In y k /\ e_file y = j /\ e_users y = 0%nat).
        { assert (Hj : In j (waiting c ++ [e_file e])) by (rewrite Ew; left; reflexivity). apply in_app_or in Hj. destruct Hj as [Hj|[<-|[]]].
          - apply (a_wait A) in Hj. destruct Hj as (y & Hy & Ey & Zy). exists (counted pred (e_file e) y). split; [apply recount_in; exists y; auto|]. rewrite counted_file.
            split; [exact Ey|]. unfold counted. destruct (_ =? _)%nat; cbn [e_users]; lia.
          - exists (counted pred (e_file e) e). split; [apply recount_in; exists e; auto|]. rewrite counted_file. split; [reflexivity|]. unfold counted. rewrite Nat.eqb_refl. cbn [e_users]. lia. }
        destruct Hj as (y & Hy & <- & Zy). assert (NDk : NoDup (map e_file k)) by (unfold k; rewrite recount_file; exact ND).
        pose proof (others_perm k y NDk Hy) as P. pose proof (Permutation_length P) as PL. pose proof (used_perm _ _ P) as PU. cbn [used filter] in PU. rewrite Zy in PU.
        change (0 <? 0)%nat with false in PU. cbv iota in PU. fold (used (others (e_file y) k)) in PU. cbn [length] in PL. lia.
      * cbn [known]. fold (used k). lia.
    + cbn [known]. fold (used k). replace (0 <? pred (e_users e))%nat with true in U by (symmetry; apply Nat.ltb_lt; lia). lia.
Qed.
Lemma run_bounded max : forall xs B fs c, agree max B fs c -> allowed_run max c xs -> N.of_nat B + N.of_nat (length xs) < 2 ^ 64 -> bounded max c ->
  bounded max (fst (cache_run max c xs)).
Proof.
  induction xs as [|x xs IH]; intros B fs c A Al Bd H; [exact H|]. destruct Al as [Al Ar]. cbn [length] in Bd.
  destruct (step_ok max B fs c x A Al ltac:(lia)) as (fs1 & _ & A1). pose proof (step_bounded max B fs c x A Al H) as H1.
  specialize (IH _ _ _ A1 Ar ltac:(lia) H1). cbn [cache_run]. destruct (cache_step max c x) as [c1 r]. cbn [fst] in *.
  destruct (cache_run max c1 xs). exact IH.
Qed.

Lemma open_known max B fs c e o : agree max B fs c -> In e (known c) -> N.of_nat B + 1 < 2 ^ 64 ->
  exists fs', file_open fs (e_path e) o = Some (fs', Some (e_file e)) /\ agree max (S B) fs' (fst (cache_open c (e_path e) o)).
Proof.
  intros A He Bd. assert (W : with_path c (e_path e) = Some e).
  { destruct (with_path c (e_path e)) as [e'|] eqn:W; [|exfalso; apply (with_path_none _ _ _ W He); reflexivity]. apply with_path_some in W. f_equal.
    apply (nodup_same e_path (known c)); [apply (c_npath (a_core A))|apply W|exact He|apply W]. }
  destruct (open_ok max B fs c (e_path e) Missing A) as (fs' & E & A'); [split; [apply (c_ascii (a_core A) e He)|exact I]|exact Bd|].
  unfold cache_open in *. rewrite W in *. cbn [fst snd] in *. exists fs'. split; [|exact A'].
  revert E. unfold file_open. destruct (rb_search path_cmp (tree fs) (e_path e)) as [a|]; [|discriminate]. cbn [obind].
  destruct (a =? 0); [discriminate|auto].
Qed.
Lemma nodup_filter_map {A B} (f : A -> B) g l : NoDup (map f l) -> NoDup (map f (filter g l)).
Proof.
  induction l as [|e l IH]; intros ND; [exact ND|]. cbn [map] in ND. inversion ND as [|? ? N1 N2]; subst. cbn [filter].
  destruct (g e); [|auto]. cbn [map]. constructor; [|auto]. intros H. apply N1. apply in_map_iff in H. destruct H as (x & Ex & Hx). apply filter_In in Hx.
  apply in_map_iff. exists x. tauto.
Qed.
Lemma waiting_length max B fs c : agree max B fs c -> (length (in_use c) + length (waiting c) = length (known c))%nat.
Proof.
  intros A. assert (L : length (waiting c) = length (filter (fun e => negb (0 <? e_users e)%nat) (known c))).
  { rewrite <- (map_length e_file (filter _ _)). apply Permutation_length, NoDup_Permutation; [apply (a_nwait A)|apply nodup_filter_map, (c_nfile (a_core A))|].
    intros i. rewrite (a_wait A), in_map_iff. split.
    - intros (e & He & Ef & Z). exists e. split; [exact Ef|]. apply filter_In. rewrite Z. auto.
    - intros (e & Ef & He). apply filter_In in He. destruct He as [He Z]. apply negb_true_iff, Nat.ltb_ge in Z. exists e. repeat split; auto. lia. }
  rewrite L. unfold in_use. generalize (known c). intros k. induction k as [|e k IH]; [reflexivity|]. cbn [filter]. destruct (0 <? e_users e)%nat; cbn [negb length] in *; lia.
Qed.
