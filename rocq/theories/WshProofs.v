Require Import List Arith NArith Lia Bool String.
Require Import ZifyBool ZifyNat ZifyN.
Require Import Verif.Base Verif.StrModel Verif.StrSpec Verif.StrProofs Verif.DigestModel Verif.DigestSpec Verif.DigestProofs Verif.DigestProps Verif.Base64Model Verif.Base64Spec Verif.Base64Proofs.
Require Import Verif.HttpModel Verif.HttpSpec Verif.HttpProofs Verif.HttpProps Verif.WshModel Verif.WshSpec.
Import List ListNotations.
Open Scope list_scope.
Open Scope N_scope.
Local Notation bstr := (list N).

(** ** The key and its answer *)
Definition printed (l : list N) : Prop := Forall (fun c => 43 <= c <= 122) l.
Lemma b64_char_printed v : 43 <= b64_char v <= 122.
Proof. unfold b64_char. destruct (N.ltb_spec v 26); [lia|]. destruct (N.ltb_spec v 52); [lia|]. destruct (N.ltb_spec v 62); [lia|]. destruct (v =? 62); lia. Qed.
Lemma b64_printed : forall l, printed (b64_spec l).
Proof.
  apply triple_ind.
  - constructor.
  - intros a. cbn [b64_spec]. repeat (apply Forall_cons; [first [apply b64_char_printed|lia]|]). constructor.
  - intros a b. cbn [b64_spec]. repeat (apply Forall_cons; [first [apply b64_char_printed|lia]|]). constructor.
  - intros a b c t IH. cbn [b64_spec app]. repeat (apply Forall_cons; [first [apply b64_char_printed|lia]|]). exact IH.
Qed.
Lemma b64_nonempty l : l <> [] -> b64_spec l <> [].
Proof. destruct l as [|a [|b [|c t]]]; intros H; [congruence|discriminate|discriminate|discriminate]. Qed.
Lemma printed_dark l : printed l -> l <> [] -> starts_dark l.
Proof. intros P H. destruct l as [|c r]; [congruence|]. inversion P; subst. exists c, r. split; [reflexivity|]. unfold is_blank. lia. Qed.
Lemma printed_not l c : printed l -> c < 43 -> ~ In c l.
Proof. intros P L H. unfold printed in P. rewrite Forall_forall in P. specialize (P c H). lia. Qed.
Lemma printed_byte l : printed l -> Base.bytes l.
Proof. apply Forall_impl. intros c H. unfold is_byte. lia. Qed.
Lemma firstn_all_app {A} (l r : list A) : firstn (length l) (l ++ r) = l.
Proof. rewrite firstn_app, Nat.sub_diag, firstn_all. cbn. apply app_nil_r. Qed.
Lemma sha1_bytes m : Base.bytes (sha1 m) /\ length (sha1 m) = 20%nat.
Proof.
  unfold sha1. destruct (fold_left _ _ _) as [[[[a b] c] d] e]. cbn [flat_map]. split; [|reflexivity].
  repeat (apply Forall_app; split; [apply bytes_be_bytes|]). constructor.
Qed.
Lemma guid_bytes : Base.bytes guid.
Proof. unfold Base.bytes. rewrite Forall_forall. intros c H. vm_compute in H. unfold is_byte. repeat (destruct H as [H|H]; [subst; reflexivity|]). destruct H. Qed.
Lemma accept_of_ok key : Base.bytes key -> accept_of key = Some (accept key).
Proof.
  intros B. unfold accept_of. destruct (sha1_streaming (repeat 0 64) [] (key ++ guid) (repeat 0 20) 20) as (c & E1 & E2).
  - reflexivity.
  - constructor.
  - apply Forall_app. split; [exact B|apply guid_bytes].
  - cbn. lia.
  - cbn [calc_all] in E1. unfold sha1_calc. rewrite E1. cbn [obind]. rewrite E2. cbn [obind concat app]. destruct (sha1_bytes (key ++ guid)) as [Sb Sl].
    unfold put. rewrite Sl. change (skipn (Nat.min 20 20) (repeat 0 20)) with (@nil N). rewrite app_nil_r. rewrite firstn_all2 by lia.
    rewrite (encode_ok _ Sb). cbn [obind fst snd]. rewrite firstn_all_app. reflexivity.
Qed.
Lemma accept_printed key : printed (accept key) /\ accept key <> [].
Proof.
  split; [apply b64_printed|]. apply b64_nonempty. destruct (sha1_bytes (key ++ text "258EAFA5-E914-47DA-95CA-C5AB0DC85B11")) as [_ L]. intros E. rewrite E in L. discriminate.
Qed.
Lemma key_bytes_ok r : key_bytes r = nonce r /\ Base.bytes (nonce r) /\ length (nonce r) = 16%nat.
Proof.
  destruct r as [[[a b] c] d]. split; [|split].
  - unfold key_bytes, nonce. f_equal. apply map_ext. intros x. cbn [map]. change 255 with (N.ones 8). rewrite !N.land_ones, !N.shiftr_div_pow2. change (2 ^ 0) with 1. rewrite N.div_1_r. reflexivity.
  - unfold nonce. cbn [map concat app]. repeat (apply Forall_cons; [unfold is_byte; apply N.mod_lt; discriminate|]). constructor.
  - reflexivity.
Qed.
Lemma key_generate_ok r : key_generate r = Some (b64_spec (nonce r)).
Proof.
  unfold key_generate. destruct (key_bytes_ok r) as (-> & B & _). rewrite (encode_ok _ B). cbn [obind fst snd]. rewrite firstn_all_app. reflexivity.
Qed.

(** ** Header fields *)
Definition put_all (l : list (bstr * option bstr)) (fs : list (bstr * bstr)) : list (bstr * option bstr) :=
  fold_left (fun l f => replace_first l (fst f) (snd f)) fs l.
Lemma set_all_ok : forall fs h, set_all h fs = Some (set_fields h (put_all (fields h) fs)).
Proof.
  induction fs as [|[k v] fs IH]; intros h; [cbn; destruct h; reflexivity|]. cbn [set_all field_set obind]. rewrite IH. cbn [fields set_fields put_all fold_left fst snd]. reflexivity.
Qed.
Lemma find_other k k2 v l : plain l -> ~ spelled k k2 ->
  find (fun e : bstr * option bstr => same k (fst e)) (replace_first l k2 v) = find (fun e => same k (fst e)) l /\
  filter (fun e : bstr * option bstr => same k (fst e)) (replace_first l k2 v) = filter (fun e => same k (fst e)) l \/ In 0 k2.
Proof.
  intros P H. destruct (in_dec N.eq_dec 0 k2) as [Z|Z]; [right; exact Z|left].
  assert (X : same k k2 = false) by (destruct (same k k2) eqn:E; [apply same_spelled in E; auto; contradiction|reflexivity]).
  induction l as [|e l IH]; cbn [replace_first find filter fst].
  - rewrite X. auto.
  - destruct (same k2 (fst e)) eqn:E2; cbn [find filter fst].
    + rewrite X. assert (Y : same k (fst e) = false).
      { destruct (same k (fst e)) eqn:E; [|reflexivity]. exfalso. apply H. assert (Z' : ~ In 0 (fst e)) by (apply P; left; reflexivity).
        eapply spelled_trans; [apply same_spelled; eauto|]. apply spelled_sym. apply same_spelled; auto. }
      rewrite Y. auto.
    + destruct (IH (plain_cons _ _ P)) as [A B]. rewrite A, B. auto.
Qed.
Lemma plain_replace l k v : plain l -> ~ In 0 k -> plain (replace_first l k v).
Proof.
  induction l as [|e l IH]; intros P Z; cbn [replace_first].
  - intros f [<-|[]]. exact Z.
  - destruct (same k (fst e)); intros f [<-|Hf].
    + exact Z.
    + apply P. right. exact Hf.
    + apply P. left. reflexivity.
    + apply (IH (plain_cons _ _ P) Z). exact Hf.
Qed.
Lemma good_replace l k v : Forall good_field l -> good_field (k, Some v) -> Forall good_field (replace_first l k v).
Proof.
  induction l as [|e l IH]; intros F G; cbn [replace_first]; [constructor; auto|]. inversion F; subst. destruct (same k (fst e)); constructor; auto.
Qed.
Lemma put_all_ok rs : forall fs l, extra rs fs -> plain l -> Forall good_field l ->
  plain (put_all l fs) /\ Forall good_field (put_all l fs) /\
  forall r, In r rs -> find (fun e : bstr * option bstr => same (text r) (fst e)) (put_all l fs) = find (fun e => same (text r) (fst e)) l /\
    filter (fun e : bstr * option bstr => same (text r) (fst e)) (put_all l fs) = filter (fun e => same (text r) (fst e)) l.
Proof.
  induction fs as [|f fs IH]; intros l E P G; [auto|]. inversion E as [|? ? (E1 & E2 & E3) E4]; subst. cbn [put_all fold_left].
  destruct (IH (replace_first l (fst f) (snd f)) E4 (plain_replace _ _ _ P E2) (good_replace _ _ _ G E1)) as (A & B & C). split; [exact A|]. split; [exact B|].
  intros r Hr. destruct (C r Hr) as [C1 C2]. fold (put_all (replace_first l (fst f) (snd f)) fs).
  unfold put_all in *. rewrite C1, C2. destruct (find_other (text r) (fst f) (snd f) l P (E3 r Hr)) as [[D1 D2]|D]; [auto|contradiction].
Qed.
Lemma put_all_snoc fs f l : put_all l (fs ++ [f]) = replace_first (put_all l fs) (fst f) (snd f).
Proof. unfold put_all. rewrite fold_left_app. reflexivity. Qed.
Lemma put_all_get : forall fs l, plain l -> Forall (fun f : bstr * bstr => ~ In 0 (fst f)) fs -> distinct fs -> forall f, In f fs ->
  find (fun e : bstr * option bstr => same (fst f) (fst e)) (put_all l fs) = Some (fst f, Some (snd f)).
Proof.
  intros fs. induction fs as [|f fs IH] using rev_ind; intros l P Z D g H; [destruct H|]. rewrite put_all_snoc.
  apply Forall_app in Z. destruct Z as [Z1 Z2]. inversion Z2 as [|? ? Z3 _]; subst. apply in_app_or in H. destruct H as [H|[<-|[]]]; [|apply replace_find].
  assert (D1 : distinct fs /\ forall x, In x fs -> ~ spelled (fst x) (fst f)).
  { clear - D. induction fs as [|x fs IH]; [split; [constructor|intros x []]|]. cbn [app] in D. inversion D as [|? ? D1 D2]; subst. destruct (IH D2) as [A B].
    rewrite Forall_app in D1. destruct D1 as [D1 D3]. inversion D3; subst. split; [constructor; auto|]. intros y [<-|Hy]; auto. }
  assert (Pp : plain (put_all l fs)).
  { clear - P Z1. revert l P. induction fs as [|x fs IH]; intros l P; [exact P|]. inversion Z1; subst. cbn [put_all fold_left]. apply IH; auto. apply plain_replace; auto. }
  destruct (find_other (fst g) (fst f) (snd f) (put_all l fs) Pp (proj2 D1 g H)) as [[E _]|E]; [|contradiction]. rewrite E. apply IH; auto. apply D1.
Qed.

(** How much the values of a name are. *)
Definition vals (k : bstr) (l : list (bstr * option bstr)) : list bstr :=
  concat (map (fun e : bstr * option bstr => match snd e with Some v => [v] | None => [] end) (filter (fun e => same k (fst e)) l)).
Definition weight (k : bstr) (l : list (bstr * option bstr)) : nat := (length (concat (vals k l)) + length (vals k l))%nat.
Lemma weight_cons (k : bstr) (e : bstr * option bstr) (l : list (bstr * option bstr)) : weight k (e :: l) = ((if same k (fst e) then match snd e with Some v => length v + 1 | None => 0 end else 0) + weight k l)%nat.
Proof.
  unfold weight, vals. cbn [filter]. change bytes with bstr. destruct (same k (fst e)); [|reflexivity]. cbn [map concat]. destruct (snd e); cbn [app concat length]; [|reflexivity]. rewrite app_length. lia.
Qed.
Lemma weight_replace k l k2 v : (weight k (replace_first l k2 v) <= weight k l + length v + 1)%nat.
Proof.
  induction l as [|e l IH]; cbn [replace_first].
  - rewrite weight_cons. cbn [fst snd]. destruct (same k k2); lia.
  - destruct (same k2 (fst e)); rewrite !weight_cons; cbn [fst snd]; [destruct (same k k2), (same k (fst e)); lia|lia].
Qed.
Lemma amount_cons f fs : amount (f :: fs) = N.of_nat (length (snd f)) + 1 + amount fs.
Proof. unfold amount. cbn [map concat]. rewrite app_length, app_length. cbn [length].
  unfold bytes in *; lia. Qed.
Lemma weight_put k : forall fs l, N.of_nat (weight k (put_all l fs)) <= N.of_nat (weight k l) + amount fs.
Proof.
  induction fs as [|f fs IH]; intros l; [change (put_all l []) with l; lia|]. change (put_all l (f :: fs)) with (put_all (replace_first l (fst f) (snd f)) fs).
  specialize (IH (replace_first l (fst f) (snd f))). pose proof (weight_replace k l (fst f) (snd f)).
  rewrite amount_cons. clear - IH H. unfold bytes in *. lia.
Qed.
Lemma vals_good k l : Forall good_field l -> Forall good_value (vals k l).
Proof.
  intros F. unfold vals. apply Forall_concat. apply Forall_map. rewrite Forall_forall in *. intros e He. apply filter_In in He. destruct He as [He _].
  destruct (F e He) as (_ & _ & G). destruct e as [n [v|]]; cbn [snd] in *; [constructor; [exact G|constructor]|constructor].
Qed.
Lemma commas_good l : l <> [] -> Forall good_value l -> good_value (commas l).
Proof.
  intros H F. destruct l as [|v l]; [congruence|]. clear H. revert v F. induction l as [|w l IH]; intros v F; inversion F as [|? ? [G1 G2] F2]; subst; [split; auto|].
  change (commas (v :: w :: l)) with (v ++ [44] ++ commas (w :: l)). destruct (IH w F2) as [_ B]. split.
  - destruct G1 as (c & r & -> & N1). exists c, (r ++ [44] ++ commas (w :: l)). auto.
  - intros H. apply in_app_or in H. destruct H as [H|[H|H]]; [auto|discriminate|auto].
Qed.
Lemma iterator_ok h k : N.of_nat (weight k (fields h)) < 2 ^ 32 - 1 ->
  field_iterator h k = Some (match vals k (fields h) with [] => None | l => Some (commas l) end).
Proof.
  unfold weight, field_iterator. change (field_values h k) with (vals k (fields h)). generalize (vals k (fields h)). intros l H. rewrite total_length.
  rewrite (proj2 (N.ltb_lt _ _)) by (unfold bytes in *; lia). rewrite join_commas. destruct l; reflexivity.
Qed.

(** ** Extensions *)
Lemma before_semicolon_ok p : ~ In 0 p -> first_part p (token p).
Proof.
  intros Z. unfold token. destruct (before_semicolon p) as [q|] eqn:E.
  - revert q E. induction p as [|c p IH]; intros q E; [discriminate|]. cbn [before_semicolon] in E. destruct (N.eqb_spec c 0); [discriminate|]. destruct (N.eqb_spec c 59) as [->|Ne].
    + injection E as <-. split; [intros []|right; exists p; reflexivity].
    + destruct (before_semicolon p) as [q'|] eqn:E'; [|discriminate]. injection E as <-. destruct (IH ltac:(intros X; apply Z; right; exact X) _ eq_refl) as [A B].
      split; [intros [X|X]; [congruence|auto]|]. destruct B as [->|(r & ->)]; [left; reflexivity|right; exists r; reflexivity].
  - split; [|left; reflexivity]. induction p as [|c p IH]; [intros []|]. cbn [before_semicolon] in E. destruct (N.eqb_spec c 0) as [->|]; [exfalso; apply Z; left; reflexivity|].
    destruct (N.eqb_spec c 59); [discriminate|]. destruct (before_semicolon p); [discriminate|]. intros [X|X]; [congruence|]. apply IH; auto. intros Y. apply Z. right. exact Y.
Qed.
Lemma removelast_commas : forall l, l <> [] -> removelast (concat (map (fun p => p ++ [44]) l)) = commas l.
Proof.
  induction l as [|v l IH]; intros H; [congruence|]. cbn [map concat]. destruct l as [|w l].
  - cbn [map concat]. rewrite app_nil_r, removelast_last. reflexivity.
  - rewrite removelast_app by (cbn [map concat]; destruct w; discriminate). rewrite IH by discriminate. rewrite <- app_assoc. reflexivity.
Qed.
Lemma runs_in P s ps : runs P s ps -> forall p, In p ps -> forall c, In c p -> In c s.
Proof.
  induction 1 as [g|g p Hg Hp1 Hp|g p c s ps Hg Hp1 Hp Hc Hr IH]; intros q Hq x Hx.
  - destruct Hq.
  - destruct Hq as [<-|[]]. apply in_or_app. auto.
  - destruct Hq as [<-|Hq]; apply in_or_app; right; apply in_or_app; [left; exact Hx|right; eapply IH; eauto].
Qed.
Lemma forall2_map {A B} (R : A -> B -> Prop) f l : (forall x, In x l -> R x (f x)) -> Forall2 R l (map f l).
Proof. induction l as [|x l IH]; intros H; constructor; [apply H; left; reflexivity|apply IH; intros; apply H; right; assumption]. Qed.
Lemma tokens_ok room v : 0 < room -> ~ In 0 v -> exists e, extension_tokens room v = Some e /\
  match e with None => runs (fun c => In c [44]) v [] | Some a => offered v a end.
Proof.
  intros R Z. unfold extension_tokens. destruct (slice_ok v [44]) as (ps & E & Rn). rewrite E. cbn [obind]. destruct ps as [|p ps]; [exists None; auto|].
  rewrite (proj2 (N.eqb_neq room 0)) by lia. eexists. split; [reflexivity|]. exists (p :: ps), (map token (p :: ps)). split; [exact Rn|]. split; [discriminate|]. split.
  - clear - Rn Z. apply forall2_map. intros q Hq. apply before_semicolon_ok. intros X. apply Z. eapply runs_in; eauto.
  - rewrite <- (map_map token (fun p => p ++ [44])). apply removelast_commas. discriminate.
Qed.

(** ** Messages *)
Lemma written h x xr l : to_write h = Some x -> head_text x l -> head_text xr l -> good_head xr -> Forall good_field (fields h) -> body h = [] ->
  exists h' c, generate None h [] = Some (RET_DONE, h', c) /\ fields h' = fields h /\
    forall d, exists h2 c2, parse None (http_init d) c = Some (RET_DONE, h2, c2) /\ holds h2 xr (fields h) /\ content c2 = [].
Proof.
  intros T L Lr G F B. destruct (generate_text h x l [] T L) as (h' & new & E & P & Eh). rewrite B, app_nil_r in E. cbn [app] in E. exists h', new. split; [exact E|]. split; [rewrite Eh; reflexivity|]. intros d.
  assert (M : message (content new) xr (fields h) []).
  { rewrite (packed_content _ _ P). rewrite <- (app_nil_r (fields_text (fields h))). now apply message_text. }
  apply (http_parse_accepts d _ _ _ _ M).
Qed.
Definition nameb (k : bstr) : bool := forallb (fun c => negb ((c =? 32) || (c =? 9) || (c =? 58) || (c =? 10) || (c =? 0))) k && negb (Nat.eqb (length k) 0).
Lemma nameb_ok k : nameb k = true -> k <> [] /\ Forall (fun c => name_byte c /\ c <> 10) k /\ ~ In 0 k.
Proof.
  unfold nameb. rewrite andb_true_iff, forallb_forall. intros [H L]. split; [intros ->; discriminate|]. split.
  - rewrite Forall_forall. intros c Hc. specialize (H c Hc). unfold name_byte, is_blank. lia.
  - intros X. specialize (H 0 X). discriminate.
Qed.
Lemma good_named k v : nameb k = true -> good_value v -> good_field (k, Some v).
Proof. intros H [G1 G2]. destruct (nameb_ok k H) as (A & B & _). split; [exact A|]. split; [exact B|]. split; assumption. Qed.
Lemma plain_named l : forallb (fun e : bstr * option bstr => nameb (fst e)) l = true -> plain l.
Proof. rewrite forallb_forall. intros H f Hf. apply (nameb_ok _ (H f Hf)). Qed.
Lemma value_printed v : printed v -> v <> [] -> good_value v.
Proof. intros P N1. split; [now apply printed_dark|]. apply printed_not; [exact P|lia]. Qed.
Lemma value_websocket : good_value n_websocket.
Proof. apply value_printed; [|discriminate]. repeat constructor; vm_compute; discriminate. Qed.
Lemma value_upgrade : good_value n_upgrade.
Proof. apply value_printed; [|discriminate]. repeat constructor; vm_compute; discriminate. Qed.
Lemma value_13 : good_value (text "13").
Proof. apply value_printed; [|discriminate]. repeat constructor; vm_compute; discriminate. Qed.

Definition base_req (key : bstr) : list (bstr * option bstr) :=
  [(n_key, Some key); (n_upgrade, Some n_websocket); (n_connection, Some n_upgrade); (n_version, Some (text "13"))].
Lemma base_req_ok key : good_value key -> plain (base_req key) /\ Forall good_field (base_req key).
Proof.
  intros K. split; [apply plain_named; reflexivity|]. pose proof value_websocket. pose proof value_upgrade. pose proof value_13.
  repeat (constructor; [apply good_named; [reflexivity|assumption]|]). constructor.
Qed.
Lemma nonce_value r : good_value (b64_spec (nonce r)).
Proof.
  apply value_printed; [apply b64_printed|]. apply b64_nonempty. destruct (key_bytes_ok r) as (_ & _ & L). intros X. rewrite X in L. discriminate.
Qed.
Definition the_uri (w : wsock) : bstr := match w_uri w with None => [47] | Some u => u end.
Lemma request_ok rnd w : extra client_names (w_fields w) -> good_head (Req 0 (the_uri w) (w_args w) 1) ->
  exists h' c, request rnd w [] = Some (WS_OK, mkW h' (w_fields w) (w_uri w) (w_args w) (w_key w), c) /\
    fields h' = put_all (base_req (b64_spec (nonce rnd))) (w_fields w) /\
    forall d, exists h2 c2, parse None (http_init d) c = Some (RET_DONE, h2, c2) /\
      holds h2 (Req 0 (the_uri w) (w_args w) 1) (put_all (base_req (b64_spec (nonce rnd))) (w_fields w)) /\ content c2 = [].
Proof.
  intros X G. destruct (base_req_ok _ (nonce_value rnd)) as [P F]. destruct (put_all_ok _ _ _ X P F) as (_ & F2 & _).
  unfold request. rewrite key_generate_ok. cbn [obind field_set]. rewrite set_all_ok. cbn [obind].
  set (h := set_fields _ _).
  assert (E : fields h = put_all (base_req (b64_spec (nonce rnd))) (w_fields w)) by reflexivity.
  destruct (text_exists _ G) as [l L].
  destruct (written h (Req 0 (the_uri w) (w_args w) 1) _ l eq_refl L L G ltac:(rewrite E; exact F2) eq_refl) as (h' & c & E1 & E3 & E2).
  rewrite E1. cbn [obind]. exists h', c. split; [reflexivity|]. rewrite <- E. auto.
Qed.

Definition opt (k : bstr) (v : option bstr) : list (bstr * option bstr) := match v with Some v => [(k, Some v)] | None => [] end.
Definition base_resp (p e : option bstr) (key : bstr) : list (bstr * option bstr) :=
  opt n_protocol p ++ opt n_extensions e ++ [(n_accept, Some (accept key)); (n_upgrade, Some n_websocket); (n_connection, Some n_upgrade)].
Definition good_opt (v : option bstr) : Prop := match v with Some v => good_value v | None => True end.
Lemma base_resp_ok p e key : good_opt p -> good_opt e -> plain (base_resp p e key) /\ Forall good_field (base_resp p e key).
Proof.
  intros Hp He. pose proof value_websocket. pose proof value_upgrade. assert (good_value (accept key)) by (apply value_printed; apply accept_printed).
  split; [apply plain_named; destruct p, e; reflexivity|].
  destruct p, e; cbn [base_resp opt app good_opt] in *; repeat (constructor; [apply good_named; [reflexivity|assumption]|]); constructor.
Qed.
Definition switching : HttpSpec.head := Resp 1 101 (Some (text "Switching Protocols")).
Lemma response_ok room w key p x e : extra server_names (w_fields w) -> field_get (w_http w) n_key = Some key -> Base.bytes key ->
  field_iterator (w_http w) n_protocol = Some p -> good_opt p ->
  field_iterator (w_http w) n_extensions = Some x -> match x with None => Some None | Some v => extension_tokens room v end = Some e -> good_opt e ->
  exists h' c, response room w [] = Some (WS_OK, mkW h' (w_fields w) (w_uri w) (w_args w) (w_key w), c) /\
    forall d, exists h2 c2, parse None (http_init d) c = Some (RET_DONE, h2, c2) /\
      holds h2 switching (put_all (base_resp p e key) (w_fields w)) /\ content c2 = [].
Proof.
  intros X K BK Hp Gp Hx He Ge. destruct (base_resp_ok p e key Gp Ge) as [P F]. destruct (put_all_ok _ _ _ X P F) as (_ & F2 & _).
  unfold response. rewrite Hp, Hx. cbn [obind].
  replace (match x with Some v => extension_tokens room v | None => Some None end) with (Some e) by (rewrite <- He; destruct x; reflexivity). cbn [obind].
  unfold accept_field. rewrite K. cbn [obind]. rewrite (accept_of_ok _ BK). cbn [obind].
  set (h0 := set_type _ _).
  assert (X0 : forall (k : http -> option (N * wsock * HttpModel.chain)),
    obind (set_some h0 n_protocol p) (fun h => obind (set_some h n_extensions e) (fun h => obind (field_set h n_accept (Some (accept key))) (fun h =>
    obind (field_set h n_upgrade (Some n_websocket)) (fun h => obind (field_set h n_connection (Some n_upgrade)) k)))) = k (set_fields h0 (base_resp p e key))) by (intros; destruct p, e; reflexivity).
  rewrite X0. rewrite set_all_ok. cbn [obind]. set (h := set_fields _ (put_all _ _)).
  assert (E : fields h = put_all (base_resp p e key) (w_fields w)) by reflexivity.
  assert (G : good_head switching) by (split; [lia|]; eexists _, _; split; reflexivity).
  destruct (text_exists _ G) as [l L].
  destruct (written h (Resp 1 101 None) switching l eq_refl L L G ltac:(rewrite E; exact F2) eq_refl) as (h' & c & E1 & E3 & E2).
  rewrite E1. cbn [obind]. exists h', c. split; [reflexivity|]. rewrite <- E. auto.
Qed.

(** ** What is read back *)
Lemma get_found h k l e : fields h = l -> find (fun e : bstr * option bstr => same k (fst e)) l = e -> field_get h k = match e with Some (_, v) => v | None => None end.
Proof. intros F E. unfold field_get, field_find. rewrite F. change bytes with bstr. rewrite E. reflexivity. Qed.
Lemma reserved_get rs fs base h : extra rs fs -> plain base -> Forall good_field base -> fields h = put_all base fs ->
  forall r, In r rs -> field_get h (text r) = match find (fun e : bstr * option bstr => same (text r) (fst e)) base with Some (_, v) => v | None => None end.
Proof. intros X P F E r Hr. destruct (put_all_ok rs fs base X P F) as (_ & _ & G). destruct (G r Hr) as [G1 _]. apply (get_found h _ _ _ E). exact G1. Qed.
Lemma extra_names rs fs : extra rs fs -> Forall (fun f : bstr * bstr => ~ In 0 (fst f)) fs.
Proof. unfold extra. rewrite !Forall_forall. intros H f Hf. apply (H f Hf). Qed.
Lemma own_get rs fs base h : extra rs fs -> distinct fs -> plain base -> fields h = put_all base fs -> forall f, In f fs -> field_get h (fst f) = Some (snd f).
Proof. intros X D P E f Hf. exact (get_found h _ _ _ E (put_all_get _ _ P (extra_names _ _ X) D f Hf)). Qed.
Lemma extra_sub rs rs' fs : extra rs fs -> incl rs' rs -> extra rs' fs.
Proof. unfold extra. rewrite !Forall_forall. intros H I f Hf. destruct (H f Hf) as (A & B & C). auto. Qed.

Lemma ncasecmp_sym : forall a b, ncasecmp a b = ncasecmp b a.
Proof.
  induction a as [|x a IH]; intros [|y b]; try reflexivity. cbn [ncasecmp]. rewrite (N.eqb_sym (lower x) (lower y)). destruct (N.eqb_spec (lower y) (lower x)) as [->|]; [|reflexivity]. now rewrite IH.
Qed.
Lemma casecmp_sym a b : casecmp a b = casecmp b a.
Proof. unfold casecmp. now rewrite Nat.eqb_sym, ncasecmp_sym. Qed.
Lemma accept_no_null key : ~ In 0 (accept key).
Proof. apply printed_not; [apply accept_printed|lia]. Qed.
Lemma validate_accept_ok h key : Base.bytes key -> validate_accept h (Some key) =
  Some (match field_get h n_accept with None => WS_NOTWS | Some v => if casecmp v (accept key) then WS_OK else WS_ERROR end).
Proof. intros B. unfold validate_accept. destruct (field_get h n_accept); [|reflexivity]. cbn [obind]. rewrite (accept_of_ok _ B). cbn [obind]. now rewrite casecmp_sym. Qed.
Lemma no_null k : nameb k = true -> ~ In 0 k.
Proof. intros H. apply (nameb_ok k H). Qed.

(** ** The fields of a WebSocket object *)
Lemma ws_same_refl k : ws_same k k = true.
Proof. unfold ws_same. now rewrite N.eqb_refl, casecmp_refl. Qed.
Lemma ws_same_spelled k k' : ~ In 0 k' -> ws_same k k' = true -> spelled k k'.
Proof. intros Z H. unfold ws_same in H. apply andb_prop in H as [_ H]. now apply casecmp_spelled. Qed.
Lemma ws_find_same k v l : find (fun e : bstr * bstr => ws_same k (fst e)) (ws_replace l k v) = Some (k, v).
Proof.
  induction l as [|[k' v'] l IH]; cbn [ws_replace find fst]; [now rewrite ws_same_refl|].
  destruct (ws_same k k') eqn:E; cbn [find fst]; [now rewrite ws_same_refl|]. rewrite E. exact IH.
Qed.
Lemma ws_find_other k k2 v l : Forall (fun f : bstr * bstr => ~ In 0 (fst f)) l -> ~ In 0 k2 -> ~ spelled k k2 ->
  find (fun e : bstr * bstr => ws_same k (fst e)) (ws_replace l k2 v) = find (fun e => ws_same k (fst e)) l.
Proof.
  intros P Z H. assert (X : ws_same k k2 = false) by (destruct (ws_same k k2) eqn:E; [apply ws_same_spelled in E; auto; contradiction|reflexivity]).
  induction l as [|[k' v'] l IH]; cbn [ws_replace find fst]; [now rewrite X|]. inversion P as [|? ? P1 P2]; subst. cbn [fst] in P1.
  destruct (ws_same k2 k') eqn:E2; cbn [find fst].
  - rewrite X. assert (Y : ws_same k k' = false).
    { destruct (ws_same k k') eqn:E; [|reflexivity]. exfalso. apply H. eapply spelled_trans; [apply ws_same_spelled; eauto|]. apply spelled_sym. apply ws_same_spelled; auto. }
    now rewrite Y.
  - rewrite (IH P2). reflexivity.
Qed.

Lemma nil_or_last (A : Type) (l : list A) : l = [] \/ exists r x, l = r ++ [x].
Proof. destruct l as [|y l]; [now left|]. right. destruct (@exists_last _ (y :: l) ltac:(discriminate)) as (r & x & E). exists r, x. exact E. Qed.
Definition apart (f g : bstr * bstr) : Prop := ws_same (fst f) (fst g) = false.
Lemma ws_same_trans a b c : ~ In 0 b -> ~ In 0 c -> ws_same a b = true -> ws_same a c = true -> ws_same b c = true.
Proof.
  intros Zb Zc H1 H2. pose proof (ws_same_spelled a b Zb H1) as S1. pose proof (ws_same_spelled a c Zc H2) as S2. unfold ws_same in *. apply andb_prop in H1 as [H1 _]. apply andb_prop in H2 as [H2 _]. apply N.eqb_eq in H1, H2.
  apply andb_true_intro. split; [apply N.eqb_eq; congruence|]. apply casecmp_spelled; [exact Zc|]. eapply spelled_trans; [apply spelled_sym, S1|exact S2].
Qed.
Lemma ws_same_sym a b : ws_same a b = ws_same b a.
Proof. unfold ws_same. now rewrite N.eqb_sym, casecmp_sym. Qed.
Lemma ws_replace_in l k v x : ForallOrdPairs apart l -> Forall (fun f : bstr * bstr => ~ In 0 (fst f)) l -> In x (ws_replace l k v) -> x = (k, v) \/ In x l /\ ws_same k (fst x) = false.
Proof.
  intros P Z. induction P as [|[ke ve] l F P IH]; cbn [ws_replace fst]; [intros [<-|[]]; now left|]. inversion Z as [|? ? Z1 Z2]; subst. cbn [fst] in *. destruct (ws_same k ke) eqn:E.
  - intros [<-|I]; [now left|]. right. split; [now right|]. rewrite Forall_forall in F, Z2. specialize (F x I). unfold apart in F. cbn [fst] in F. destruct (ws_same k (fst x)) eqn:E2; [|first [reflexivity|exact E2]].
    pose proof (ws_same_trans k ke (fst x) Z1 (Z2 x I) E E2) as T. unfold HttpModel.bytes in *. rewrite T in F. discriminate.
  - intros [<-|I]; [right; split; [now left|exact E]|]. destruct (IH Z2 I) as [->|[J1 J2]]; [now left|right; split; [now right|exact J2]].
Qed.
Lemma ws_replace_has l k v : In (k, v) (ws_replace l k v).
Proof. induction l as [|[ke ve] l IH]; cbn [ws_replace fst]; [now left|]. destruct (ws_same k ke); [now left|now right]. Qed.
Lemma ws_replace_keeps l k v x : In x l -> ws_same k (fst x) = false -> In x (ws_replace l k v).
Proof.
  intros I E. induction l as [|[ke ve] l IH]; [destruct I|]. cbn [ws_replace fst]. destruct I as [<-|I]; [cbn [fst] in E; rewrite E; now left|]. destruct (ws_same k ke); [now right|right; auto].
Qed.
Lemma ws_replace_apart l k v : ForallOrdPairs apart l -> Forall (fun f : bstr * bstr => ~ In 0 (fst f)) l -> ~ In 0 k ->
  ForallOrdPairs apart (ws_replace l k v) /\ Forall (fun f : bstr * bstr => ~ In 0 (fst f)) (ws_replace l k v).
Proof.
  intros P Z K. induction P as [|[ke ve] l F P IH]; cbn [ws_replace fst]; [split; repeat constructor; exact K|]. inversion Z as [|? ? Z1 Z2]; subst. cbn [fst] in *. destruct (ws_same k ke) eqn:E.
  - split; [|constructor; assumption]. constructor; [|exact P]. apply Forall_forall. intros x I. unfold apart. cbn [fst]. rewrite Forall_forall in F, Z2. specialize (F x I). unfold apart in F. cbn [fst] in F.
    destruct (ws_same k (fst x)) eqn:E2; [|first [reflexivity|exact E2]]. pose proof (ws_same_trans k ke (fst x) Z1 (Z2 x I) E E2) as T. unfold HttpModel.bytes in *. rewrite T in F. discriminate.
  - destruct (IH Z2) as [I1 I2]. split; [|constructor; assumption]. constructor; [|exact I1]. apply Forall_forall. intros x I. destruct (ws_replace_in l k v x P Z2 I) as [->|[J _]].
    + unfold apart. cbn [fst]. now rewrite ws_same_sym.
    + rewrite Forall_forall in F. exact (F x J).
Qed.
Definition ws_sets (w : wsock) (l : list (bstr * bstr)) : wsock := fold_left (fun w f => ws_set_field w (fst f) (snd f)) l w.
Lemma ws_sets_ok h l : Forall (fun f : bstr * bstr => ~ In 0 (fst f)) l -> let fs := w_fields (ws_sets (ws_init h) l) in
  ForallOrdPairs apart fs /\ Forall (fun f : bstr * bstr => ~ In 0 (fst f)) fs /\
  (forall f, In f fs -> exists a b, l = a ++ f :: b /\ ~ In (fst f) (map fst b)) /\
  (forall a f b, l = a ++ f :: b -> (forall k, In k (map fst b) -> ~ spelled k (fst f)) -> In f fs).
Proof.
  induction l as [|[k v] l IH] using rev_ind; intros Z fs.
  - subst fs. cbn. split; [constructor|]. split; [constructor|]. split; [intros f []|]. intros a f b E. now destruct a.
  - apply Forall_app in Z. destruct Z as [Z Zk]. apply Forall_inv in Zk. cbn [fst] in Zk. specialize (IH Z). cbn zeta in IH. destruct IH as (A & B & C & D).
    assert (E : fs = ws_replace (w_fields (ws_sets (ws_init h) l)) k v) by (subst fs; unfold ws_sets; rewrite fold_left_app; reflexivity). rewrite E. clear fs E. set (fs := w_fields (ws_sets (ws_init h) l)) in *.
    destruct (ws_replace_apart fs k v A B Zk) as [A' B']. split; [exact A'|]. split; [exact B'|]. split.
    + intros f I. destruct (ws_replace_in fs k v f A B I) as [->|[J N]]; [exists l, []; split; [reflexivity|intros []]|]. destruct (C f J) as (a & b & -> & M). exists a, (b ++ [(k, v)]). rewrite <- app_assoc. split; [reflexivity|].
      rewrite map_app. intros K. apply in_app_or in K. destruct K as [K|[K|[]]]; [auto|]. cbn [fst] in K. subst k. rewrite ws_same_refl in N. discriminate.
    + intros a f b E N. destruct (@nil_or_last _ b) as [->|(b' & y & ->)].
      * apply app_inj_tail in E. destruct E as [_ <-]. apply ws_replace_has.
      * change (a ++ f :: b' ++ [y]) with (a ++ (f :: b') ++ [y]) in E. rewrite app_assoc in E. apply app_inj_tail in E. destruct E as [-> <-]. apply ws_replace_keeps.
        -- apply (D a f b' eq_refl). intros q Q. apply N. rewrite map_app. apply in_or_app. now left.
        -- destruct (ws_same k (fst f)) eqn:S1; [|exact S1]. exfalso. apply (N k); [rewrite map_app; apply in_or_app; right; now left|]. apply ws_same_spelled; [|exact S1].
           rewrite Forall_forall in Z. apply Z. apply in_or_app. right. now left.
Qed.

Lemma first_part_once p q q' : first_part p q -> first_part p q' -> q = q'.
Proof.
  assert (A : forall (q q' r r' : bstr), ~ In 59 q -> ~ In 59 q' -> q ++ 59 :: r = q' ++ 59 :: r' -> q = q').
  { induction q0 as [|c q0 IH]; intros [|c' q1] r r' H H' E; try reflexivity; cbn [app] in E; injection E as E1 E2.
    - subst c'. exfalso. apply H'. left. reflexivity.
    - subst c. exfalso. apply H. left. reflexivity.
    - subst c'. f_equal. apply (IH q1 r r'); [intros Z; apply H; right; exact Z|intros Z; apply H'; right; exact Z|exact E2]. }
  intros (H1 & [E1|(r & E1)]) (H2 & [E2|(r' & E2)]).
  - congruence.
  - exfalso. apply H1. rewrite <- E1, E2. apply in_or_app. right. left. reflexivity.
  - exfalso. apply H2. rewrite <- E2, E1. apply in_or_app. right. left. reflexivity.
  - apply (A q q' r r'); congruence.
Qed.
Lemma offered_once v a e : offered v a -> match e with None => runs (fun c => In c [44]) v [] | Some a => offered v a end -> e = Some a.
Proof.
  intros (ps & qs & R & N1 & F & ->) H.
  assert (U : forall ps', runs (fun c => In c [44]) v ps' -> ps = ps').
  { intros ps' H'. eapply runs_unique; [|exact R|exact H']. intros c. destruct (in_dec N.eq_dec c [44]); auto. }
  destruct e as [b|]; [|apply U in H; contradiction].
  destruct H as (ps' & qs' & R' & _ & F' & ->). apply U in R'. subst ps'. do 2 f_equal. clear - F F'. revert qs' F'. induction F as [|p q ps qs H F IH]; intros qs' F'; inversion F'; subst; [reflexivity|].
  f_equal; [eapply first_part_once; eauto|apply IH; assumption].
Qed.
