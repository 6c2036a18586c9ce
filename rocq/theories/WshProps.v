(** * The WebSocket handshake: what a program may rely on *)
Require Import List Arith NArith Lia Bool String.
Require Import ZifyBool ZifyNat ZifyN.
Require Import Verif.Base Verif.StrSpec Verif.Base64Spec Verif.HttpModel Verif.HttpSpec Verif.HttpProofs Verif.WshModel Verif.WshSpec Verif.WshProofs.
Import List ListNotations.
Open Scope list_scope.
Open Scope N_scope.

(** ** The client's request *)
(** The request that is written is read back, in whatever object, as a request of the target over HTTP/1.1 with the fields of the handshake
    and all fields the program has set; the object it was made with has the key, and the server sees a WebSocket request. *)
Theorem ws_request_read_back : forall rnd w, extra client_names (w_fields w) -> distinct (w_fields w) ->
  let u := match w_uri w with Some u => u | None => text "/" end in
  good_head (Req 0 u (w_args w) 1) ->
  exists w' c, request rnd w [] = Some (WS_OK, w', c) /\
    field_get (w_http w') (text "Sec-WebSocket-Key") = Some (b64_spec (nonce rnd)) /\
    forall d, exists h rest, parse None (http_init d) c = Some (RET_DONE, h, rest) /\ content rest = [] /\
      head_of h = Some (Req 0 u (w_args w) 1) /\ is_websocket h = WS_OK /\
      field_get h (text "Upgrade") = Some (text "websocket") /\ field_get h (text "Connection") = Some (text "Upgrade") /\
      field_get h (text "Sec-WebSocket-Version") = Some (text "13") /\
      field_get h (text "Sec-WebSocket-Key") = Some (b64_spec (nonce rnd)) /\
      forall f, In f (w_fields w) -> field_get h (fst f) = Some (snd f).
Proof.
  intros rnd w X D u G. destruct (request_ok rnd w X G) as (h' & c & E & F & R). eexists _, c. split; [exact E|].
  destruct (base_req_ok _ (nonce_value rnd)) as [P Fo]. pose proof (reserved_get _ _ _ h' X P Fo F) as G'. split; [cbn [w_http]; rewrite G' by (left; reflexivity); reflexivity|].
  intros d. destruct (R d) as (h & rest & Ep & (HO & Fh & _) & C). exists h, rest. split; [exact Ep|]. split; [exact C|]. split; [exact HO|].
  pose proof (reserved_get _ _ _ h X P Fo Fh) as Gh.
  assert (U : field_get h (text "Upgrade") = Some (text "websocket")) by (rewrite Gh by (right; left; reflexivity); reflexivity).
  split.
  { unfold is_websocket, n_upgrade. rewrite U. assert (T : type h = REQUEST).
    { unfold head_of in HO. destruct (N.eqb_spec (type h) REQUEST); [assumption|]. destruct (type h =? RESPONSE); discriminate. }
    rewrite T. reflexivity. }
  split; [exact U|]. split; [rewrite Gh by (right; right; left; reflexivity); reflexivity|]. split; [rewrite Gh by (right; right; right; left; reflexivity); reflexivity|].
  split; [rewrite Gh by (left; reflexivity); reflexivity|]. exact (own_get _ _ _ _ X D P Fh).
Qed.
Print Assumptions ws_request_read_back.

(** ** The server's response *)
(** To a request with a key, the server answers with the digest of that key, the protocols offered, and the names of the extensions offered.
    The protocols and the fields the program sets are text that HTTP can carry; the program's own fields win. The text is read back, in
    whatever object, as a response that switches protocols. [room] is what the allocator gives beyond the bytes asked for. *)
Definition no_field (name : string) (fs : list (HttpModel.bytes * HttpModel.bytes)) : Prop := forall f, In f fs -> ~ spelled (text name) (fst f).
Theorem ws_response_read_back_partial : forall room w key p x e, extra server_names (w_fields w) -> distinct (w_fields w) ->
  field_get (w_http w) (text "Sec-WebSocket-Key") = Some key -> Base.bytes key ->
  field_iterator (w_http w) (text "Sec-WebSocket-Protocol") = Some p -> (forall v, p = Some v -> good_value v) ->
  field_iterator (w_http w) (text "Sec-WebSocket-Extensions") = Some x ->
  match x with None => e = None | Some v => 0 < room /\ ~ In 0 v /\ exists a, e = Some a /\ offered v a /\ good_value a end ->
  exists w' c, response room w [] = Some (WS_OK, w', c) /\
    forall d, exists h rest, parse None (http_init d) c = Some (RET_DONE, h, rest) /\ content rest = [] /\
      head_of h = Some (Resp 1 101 (Some (text "Switching Protocols"))) /\
      field_get h (text "Sec-WebSocket-Accept") = Some (accept key) /\
      field_get h (text "Upgrade") = Some (text "websocket") /\ field_get h (text "Connection") = Some (text "Upgrade") /\
      (no_field "Sec-WebSocket-Protocol" (w_fields w) -> field_get h (text "Sec-WebSocket-Protocol") = p) /\
      (no_field "Sec-WebSocket-Extensions" (w_fields w) -> field_get h (text "Sec-WebSocket-Extensions") = e) /\
      forall f, In f (w_fields w) -> field_get h (fst f) = Some (snd f).
Proof.
  intros room w key p x e X D K B Hp Gp Hx He.
  assert (He' : match x with None => Some None | Some v => extension_tokens room v end = Some e /\ good_opt e).
  { destruct x as [v|]; [|subst e; split; [reflexivity|exact I]]. destruct He as (R & Z & a & -> & O & Ga). split; [|exact Ga].
    destruct (tokens_ok room v R Z) as (e & E & O'). rewrite E. f_equal. exact (offered_once v a e O O'). }
  destruct He' as [He1 He2]. assert (Gp' : good_opt p) by (destruct p; [apply Gp; reflexivity|exact I]).
  destruct (response_ok room w key p x e X K B Hp Gp' Hx He1 He2) as (h' & c & E & R). eexists _, c. split; [exact E|].
  destruct (base_resp_ok p e key Gp' He2) as [P Fo].
  intros d. destruct (R d) as (h & rest & Ep & (HO & Fh & _) & C). exists h, rest. split; [exact Ep|]. split; [exact C|]. split; [exact HO|].
  pose proof (reserved_get _ _ _ h X P Fo Fh) as Gh.
  split; [rewrite Gh by (left; reflexivity); destruct p, e; reflexivity|]. split; [rewrite Gh by (right; left; reflexivity); destruct p, e; reflexivity|].
  split; [rewrite Gh by (right; right; left; reflexivity); destruct p, e; reflexivity|].
  assert (N1 : forall r, no_field r (w_fields w) -> extra [r] (w_fields w)).
  { intros r Hr. unfold extra in *. rewrite Forall_forall in *. intros f Hf. destruct (X f Hf) as (A1 & A2 & _). split; [exact A1|]. split; [exact A2|]. intros r' [<-|[]]. apply Hr, Hf. }
  split; [|split].
  - intros Nr. rewrite (reserved_get _ _ _ h (N1 _ Nr) P Fo Fh) by (left; reflexivity). destruct p, e; reflexivity.
  - intros Nr. rewrite (reserved_get _ _ _ h (N1 _ Nr) P Fo Fh) by (left; reflexivity). destruct p, e; reflexivity.
  - exact (own_get _ _ _ _ X D P Fh).
Qed.
Print Assumptions ws_response_read_back_partial.

(** ** The whole handshake *)
(** Whatever a client sends and a server answers, with the fields they choose and in however many objects, the client that keeps its key
    accepts the answer. *)
Theorem ws_handshake : forall rnd w, extra ("Sec-WebSocket-Extensions" :: client_names)%string (w_fields w) -> amount (w_fields w) < 2 ^ 32 - 1 ->
  good_head (Req 0 (match w_uri w with Some u => u | None => text "/" end) (w_args w) 1) ->
  exists w1 c1, request rnd w [] = Some (WS_OK, w1, c1) /\
  forall d, exists hs r1, parse None (http_init d) c1 = Some (RET_DONE, hs, r1) /\ is_websocket hs = WS_OK /\
  forall room s, w_http s = hs -> extra server_names (w_fields s) ->
  exists s1 c2, response room s [] = Some (WS_OK, s1, c2) /\
  forall d', exists hc r2, parse None (http_init d') c2 = Some (RET_DONE, hc, r2) /\ content r2 = [] /\
  forall w2, w_http w2 = hc -> w_key w2 = field_get (w_http w1) (text "Sec-WebSocket-Key") -> ws_validate w2 = Some WS_OK.
Proof.
  intros rnd w X A G.
  assert (Xc : extra client_names (w_fields w)) by (apply (extra_sub _ _ _ X); intros r Hr; right; exact Hr).
  destruct (request_ok rnd w Xc G) as (h' & c1 & E1 & F1 & R1). eexists _, c1. split; [exact E1|].
  destruct (base_req_ok _ (nonce_value rnd)) as [P Fo]. intros d. destruct (R1 d) as (hs & r1 & Ep & (HO & Fh & _) & C). exists hs, r1. split; [exact Ep|].
  pose proof (reserved_get _ _ _ hs Xc P Fo Fh) as Gh.
  assert (U : field_get hs (text "Upgrade") = Some (text "websocket")) by (rewrite Gh by (right; left; reflexivity); reflexivity).
  split.
  { unfold is_websocket, n_upgrade. rewrite U. assert (T : type hs = REQUEST).
    { unfold head_of in HO. destruct (N.eqb_spec (type hs) REQUEST); [assumption|]. destruct (type hs =? RESPONSE); discriminate. }
    rewrite T. reflexivity. }
  intros room s Hs Xs. set (key := b64_spec (nonce rnd)) in *.
  assert (K : field_get (w_http s) n_key = Some key) by (rewrite Hs; unfold n_key; rewrite Gh by (left; reflexivity); reflexivity).
  assert (Bk : Base.bytes key) by (apply printed_byte, b64_printed).
  destruct (put_all_ok _ _ _ X P Fo) as (_ & Fall & Fx).
  assert (W : N.of_nat (weight n_protocol (fields hs)) < 2 ^ 32 - 1).
  { rewrite Fh. eapply N.le_lt_trans; [apply weight_put|]. change (weight n_protocol (base_req key)) with O. exact A. }
  assert (Ex : vals n_extensions (fields hs) = []).
  { rewrite Fh. unfold vals. destruct (Fx "Sec-WebSocket-Extensions"%string (or_introl eq_refl)) as [_ Fx2]. unfold n_extensions, HttpModel.bytes in *. rewrite Fx2. reflexivity. }
  assert (We : field_iterator (w_http s) n_extensions = Some None).
  { rewrite Hs, iterator_ok by (unfold weight; rewrite Ex; reflexivity). rewrite Ex. reflexivity. }
  set (p := match vals n_protocol (fields hs) with [] => None | l => Some (commas l) end).
  assert (Wp : field_iterator (w_http s) n_protocol = Some p) by (rewrite Hs; apply iterator_ok, W).
  assert (Gp : good_opt p).
  { unfold p. assert (V : Forall good_value (vals n_protocol (fields hs))) by (apply vals_good; rewrite Fh; exact Fall).
    destruct (vals n_protocol (fields hs)) as [|v l] eqn:Ev; [exact I|]. unfold good_opt. apply commas_good; [discriminate|exact V]. }
  destruct (response_ok room s key p None None Xs K Bk Wp Gp We eq_refl I) as (h2 & c2 & E2 & R2). eexists _, c2. split; [exact E2|].
  intros d'. destruct (R2 d') as (hc & r2 & Ep2 & (HO2 & Fh2 & _) & C2). exists hc, r2. split; [exact Ep2|]. split; [exact C2|].
  intros w2 Hw2 Hk. destruct (base_resp_ok p None key Gp I) as [P2 Fo2]. pose proof (reserved_get _ _ _ hc Xs P2 Fo2 Fh2) as Gc.
  pose proof (reserved_get _ _ _ h' Xc P Fo F1) as Gk. cbn [w_http] in Hk. rewrite (Gk "Sec-WebSocket-Key"%string) in Hk by (left; reflexivity).
  change (w_key w2 = Some key) in Hk.
  unfold ws_validate. rewrite Hw2, Hk.
  assert (S1 : status hc = 101 /\ type hc = RESPONSE).
  { unfold head_of in HO2. destruct (type hc =? REQUEST); [destruct (uri hc); discriminate|]. destruct (N.eqb_spec (type hc) RESPONSE); [|discriminate]. injection HO2 as _ Hst _. auto. }
  destruct S1 as [-> ->]. cbn [negb N.eqb Pos.eqb].
  unfold n_upgrade, n_connection. rewrite (Gc "Upgrade"%string) by (right; left; reflexivity). rewrite (Gc "Connection"%string) by (right; right; left; reflexivity).
  rewrite (validate_accept_ok _ _ Bk). unfold n_accept. rewrite (Gc "Sec-WebSocket-Accept"%string) by (left; reflexivity).
  assert (Fi : find (fun e : list N * option (list N) => same (text "Sec-WebSocket-Accept") (fst e)) (base_resp p None key) = Some (n_accept, Some (accept key))) by (destruct p; reflexivity).
  rewrite Fi, casecmp_refl. destruct p; reflexivity.
Qed.
Print Assumptions ws_handshake.

(** ** Judging a message *)
(** A request is for a WebSocket when it asks for that upgrade, in whatever spelling. *)
Theorem ws_server_test : forall h, is_websocket h = WS_OK <->
  type h = REQUEST /\ exists v, field_get h (text "Upgrade") = Some v /\ spelled v (text "websocket").
Proof.
  intros h. unfold is_websocket. unfold n_upgrade. destruct (field_get h (text "Upgrade")) as [v|]; [|split; [discriminate|intros (_ & v & X & _); discriminate]].
  rewrite casecmp_sym. assert (Z : ~ In 0 n_websocket) by (apply no_null; reflexivity). pose proof (casecmp_spelled v n_websocket Z) as S1.
  destruct (casecmp v n_websocket).
  - destruct (N.eqb_spec (type h) REQUEST); split; intros H; try discriminate.
    + split; [assumption|]. exists v. split; [reflexivity|]. apply S1. reflexivity.
    + reflexivity.
    + exfalso. tauto.
  - split; [discriminate|]. intros (_ & v' & E & S2). injection E as <-. apply S1 in S2. discriminate.
Qed.
Print Assumptions ws_server_test.
(** A client accepts exactly the responses that switch protocols, upgrade to a WebSocket and have the digest of its key - up to the case of
    letters, in the digest as well. *)
Theorem ws_validate_exact : forall w key, w_key w = Some key -> Base.bytes key ->
  exists r, ws_validate w = Some r /\
  (r = WS_OK <-> type (w_http w) = RESPONSE /\ status (w_http w) = 101 /\
     exists u c a, field_get (w_http w) (text "Upgrade") = Some u /\ spelled u (text "websocket") /\
       field_get (w_http w) (text "Connection") = Some c /\ spelled c (text "Upgrade") /\
       field_get (w_http w) (text "Sec-WebSocket-Accept") = Some a /\ spelled a (accept key)).
Proof.
  intros w key K B. unfold ws_validate. rewrite K, (validate_accept_ok _ _ B). cbn [obind]. unfold n_upgrade, n_connection, n_accept. set (h := w_http w).
  assert (D : forall a b, In a [WS_NOTWS; WS_ERROR] -> ~ b -> exists r, Some a = Some r /\ (r = WS_OK <-> b)).
  { intros a b Ha Hb. exists a. split; [reflexivity|]. split; [|tauto]. intros ->. destruct Ha as [Ha|[Ha|[]]]; discriminate. }
  destruct (N.eqb_spec (status h) 101) as [Es|Es]; cbn [negb]; [|apply D; [left; reflexivity|tauto]].
  destruct (field_get h (text "Upgrade")) as [u|]; [|apply D; [left; reflexivity|intros (_ & _ & u & c & a & X & _); discriminate]].
  assert (Z : ~ In 0 n_websocket) by (apply no_null; reflexivity). pose proof (casecmp_spelled u n_websocket Z) as S1.
  destruct (casecmp u n_websocket); cbn [negb]; [|apply D; [left; reflexivity|]].
  2:{ intros (_ & _ & u' & c & a & X & S2 & _). injection X as <-. apply S1 in S2. discriminate. }
  destruct (field_get h (text "Connection")) as [c|]; [|apply D; [left; reflexivity|intros (_ & _ & u' & c & a & _ & _ & X & _); discriminate]].
  assert (Z2 : ~ In 0 (text "Upgrade")) by (apply no_null; reflexivity). pose proof (casecmp_spelled c (text "Upgrade") Z2) as S3.
  destruct (casecmp c (text "Upgrade")); cbn [negb]; [|apply D; [left; reflexivity|]].
  2:{ intros (_ & _ & u' & c' & a & _ & _ & X & S4 & _). injection X as <-. apply S3 in S4. discriminate. }
  destruct (field_get h (text "Sec-WebSocket-Accept")) as [a|].
  2:{ apply D; [left; reflexivity|]. intros (_ & _ & u' & c' & a & _ & _ & _ & _ & X & _). discriminate. }
  pose proof (casecmp_spelled a (accept key) (accept_no_null key)) as S5. destruct (casecmp a (accept key)).
  2:{ apply D; [right; left; reflexivity|]. intros (_ & _ & u' & c' & a' & _ & _ & _ & _ & X & S6). injection X as <-. apply S5 in S6. discriminate. }
  change (WS_OK =? WS_OK) with true. cbn [negb]. destruct (N.eqb_spec (type h) RESPONSE); cbn [negb]; [|apply D; [right; left; reflexivity|tauto]].
  exists WS_OK. split; [reflexivity|]. split; [intros _|reflexivity]. split; [assumption|]. split; [assumption|]. exists u, c, a.
  split; [reflexivity|]. split; [apply S1; reflexivity|]. split; [reflexivity|]. split; [apply S3; reflexivity|]. split; [reflexivity|]. apply S5. reflexivity.
Qed.
Print Assumptions ws_validate_exact.

(** ** Extensions *)
(** Of each extension offered, the part in front of the parameters is sent back, when the allocator gives at least one byte more. *)
Theorem ws_extension_tokens : forall room v, 0 < room -> ~ In 0 v ->
  exists e, extension_tokens room v = Some e /\
  match e with Some a => offered v a | None => forall c, In c v -> c = 44 end.
Proof.
  intros room v R Z. destruct (tokens_ok room v R Z) as (e & E & O). exists e. split; [exact E|]. destruct e; [exact O|].
  inversion O as [g Hg| |]; subst. rewrite Forall_forall in Hg. intros c Hc. destruct (Hg c Hc) as [<-|[]]. reflexivity.
Qed.
Print Assumptions ws_extension_tokens.

(** ** The fields a program sets *)
Theorem ws_field_set_get : forall w k v,
  ws_get_field (ws_set_field w k v) k = Some v /\
  forall k', Forall (fun f : HttpModel.bytes * HttpModel.bytes => ~ In 0 (fst f)) (w_fields w) -> ~ In 0 k -> ~ spelled k' k ->
    ws_get_field (ws_set_field w k v) k' = ws_get_field w k'.
Proof.
  intros w k v. split.
  - unfold ws_get_field, ws_set_field. cbn [w_fields]. pose proof (ws_find_same k v (w_fields w)) as E. unfold HttpModel.bytes in *. rewrite E. reflexivity.
  - intros k' P Z H. unfold ws_get_field, ws_set_field. cbn [w_fields]. pose proof (ws_find_other k' k v (w_fields w) P Z H) as E. unfold HttpModel.bytes in *. rewrite E. reflexivity.
Qed.
Print Assumptions ws_field_set_get.

(** However often fields are set: no two of them have the same name, each has the value its name was set to last, and none is lost that was not set
    again, in whatever spelling. *)
Theorem ws_fields_last : forall h l, Forall (fun f : HttpModel.bytes * HttpModel.bytes => ~ In 0 (fst f)) l ->
  let fs := w_fields (fold_left (fun w f => ws_set_field w (fst f) (snd f)) l (ws_init h)) in
  NoDup (map fst fs) /\
  (forall k v, In (k, v) fs -> exists a b, l = a ++ (k, v) :: b /\ ~ In k (map fst b)) /\
  (forall a k v b, l = a ++ (k, v) :: b -> (forall k', In k' (map fst b) -> ~ spelled k' k) -> In (k, v) fs).
Proof.
  intros h l Z fs. destruct (ws_sets_ok h l Z) as (A & B & C & D). split; [|split; [intros k v; apply (C (k, v))|intros a k v b; apply (D a (k, v) b)]].
  subst fs. unfold ws_sets in *. clear - A. induction A as [|f fs F A IH]; cbn [map]; constructor; [|exact IH]. intros I. apply in_map_iff in I. destruct I as (g & E & I). rewrite Forall_forall in F. specialize (F g I). unfold apart in F. pose proof (ws_same_refl (fst f)) as R. unfold HttpModel.bytes in *. rewrite <- E in R. congruence.
Qed.
Print Assumptions ws_fields_last.
Example ex_fields_last : w_fields (fold_left (fun w f => ws_set_field w (fst f) (snd f)) [(text "Host", text "a"); (text "Origin", text "b"); (text "Host", text "c")] (ws_init (http_init []))) = [(text "Host", text "c"); (text "Origin", text "b")].
Proof. vm_compute. reflexivity. Qed.

(** ** Cases *)
(** The key and the answer of RFC 6455, section 1.3. *)
Example ws_accept_ex : accept_of (text "dGhlIHNhbXBsZSBub25jZQ==") = Some (text "s3pPLMBiTxaQ9kYGzzhZRbK+xOo=").
Proof. vm_compute. reflexivity. Qed.
Definition ex_client : wsock := mkW (http_init []) [(text "Host", text "example.com"); (text "Sec-WebSocket-Protocol", text "chat, superchat")] (Some (text "/chat")) None None.
Definition ex_rnd : N * N * N * N := (0x74686520, 0x73616d70, 0x6c65206e, 0x6f6e6365).
Lemma not_spelled w r : casecmp w r = false -> ~ In 0 r -> ~ spelled w r.
Proof. intros H Z S1. apply (casecmp_spelled w r Z) in S1. congruence. Qed.
Lemma value_printed_or v : (match v with [] => false | c :: _ => negb ((c =? 32) || (c =? 9)) end) && forallb (fun c => negb (c =? 10)) v = true -> starts_dark v /\ ~ In 10 v.
Proof.
  rewrite andb_true_iff, forallb_forall. intros [A B]. split.
  - destruct v as [|c r]; [discriminate|]. exists c, r. split; [reflexivity|]. unfold is_blank. lia.
  - intros X. specialize (B 10 X). discriminate.
Qed.
Ltac fields_good := repeat (constructor; [split; [split; [discriminate|split; [apply nameb_ok; reflexivity|apply value_printed_or; reflexivity]]|
  split; [apply no_null; reflexivity|intros r Hr; repeat (destruct Hr as [<-|Hr]; [apply not_spelled; [reflexivity|apply no_null; reflexivity]|]); destruct Hr]]|]); constructor.
Example ws_client_meets : extra ("Sec-WebSocket-Extensions" :: client_names)%string (w_fields ex_client) /\ extra client_names (w_fields ex_client) /\ distinct (w_fields ex_client) /\
  amount (w_fields ex_client) < 2 ^ 32 - 1 /\ good_head (Req 0 (text "/chat") None 1).
Proof.
  split; [unfold ex_client; cbn [w_fields]; fields_good|]. split; [unfold ex_client; cbn [w_fields]; fields_good|]. split.
  { repeat constructor; apply not_spelled; [reflexivity|apply no_null; reflexivity]. }
  split; [vm_compute; reflexivity|]. split; [lia|]. split; [lia|]. split; [|split; [intros X; vm_compute in X; repeat destruct X as [X|X]; try discriminate; exact X|discriminate]].
  repeat (constructor; [split; [intros [X|X]; discriminate|discriminate]|]). constructor.
Qed.
(** The two messages of the handshake with that key. *)
Example ws_handshake_ex : match request ex_rnd ex_client [] with
  | Some (r, w1, c1) =>
      r = WS_OK /\ content c1 = text "GET /chat HTTP/1.1" ++ [13; 10] ++ text "Sec-WebSocket-Key: dGhlIHNhbXBsZSBub25jZQ==" ++ [13; 10] ++ text "Upgrade: websocket" ++ [13; 10] ++
        text "Connection: Upgrade" ++ [13; 10] ++ text "Sec-WebSocket-Version: 13" ++ [13; 10] ++ text "Host: example.com" ++ [13; 10] ++
        text "Sec-WebSocket-Protocol: chat, superchat" ++ [13; 10; 13; 10] /\
      match parse None (http_init []) c1 with
      | Some (_, hs, _) =>
          match response 0 (mkW hs [(text "Sec-WebSocket-Protocol", text "chat")] None None None) [] with
          | Some (r, _, c2) => r = WS_OK /\ content c2 = text "HTTP/1.1 101 Switching Protocols" ++ [13; 10] ++ text "Sec-WebSocket-Protocol: chat" ++ [13; 10] ++
              text "Sec-WebSocket-Accept: s3pPLMBiTxaQ9kYGzzhZRbK+xOo=" ++ [13; 10] ++ text "Upgrade: websocket" ++ [13; 10] ++ text "Connection: Upgrade" ++ [13; 10; 13; 10]
          | None => False
          end
      | None => False
      end
  | None => False
  end.
Proof. vm_compute. repeat split. Qed.
(** A request that offers extensions, and a response to it. *)
Definition ex_offer : http := set_fields (set_type (http_init []) REQUEST)
  [(text "Upgrade", Some (text "WebSocket")); (text "Sec-WebSocket-Key", Some (text "dGhlIHNhbXBsZSBub25jZQ==")); (text "Sec-WebSocket-Extensions", Some (text "deflate;bits=8,mux,x;y;z"))].
Example ws_response_meets : let w := mkW ex_offer [] None None None in
  extra server_names (w_fields w) /\ distinct (w_fields w) /\ Base.bytes (text "dGhlIHNhbXBsZSBub25jZQ==") /\
  field_get (w_http w) (text "Sec-WebSocket-Key") = Some (text "dGhlIHNhbXBsZSBub25jZQ==") /\
  field_iterator (w_http w) (text "Sec-WebSocket-Protocol") = Some None /\
  field_iterator (w_http w) (text "Sec-WebSocket-Extensions") = Some (Some (text "deflate;bits=8,mux,x;y;z")) /\ ~ In 0 (text "deflate;bits=8,mux,x;y;z") /\
  offered (text "deflate;bits=8,mux,x;y;z") (text "deflate,mux,x") /\ good_value (text "deflate,mux,x").
Proof.
  split; [constructor|]. split; [constructor|]. split; [unfold Base.bytes; repeat constructor; vm_compute; reflexivity|]. split; [reflexivity|]. split; [reflexivity|]. split; [vm_compute; reflexivity|].
  assert (Z : ~ In 0 (text "deflate;bits=8,mux,x;y;z")) by (apply no_null; reflexivity). split; [exact Z|]. split; [|apply value_printed_or; reflexivity].
  destruct (tokens_ok 1 (text "deflate;bits=8,mux,x;y;z") ltac:(lia) Z) as (e & E & O). vm_compute in E. injection E as <-. exact O.
Qed.
Example ws_server_test_ex : is_websocket ex_offer = WS_OK. Proof. reflexivity. Qed.
Definition ex_answer (a : HttpModel.bytes) : wsock := mkW (set_fields (set_status (set_type (http_init []) RESPONSE) 101)
  [(text "Connection", Some (text "upgrade")); (text "Sec-WebSocket-Accept", Some a); (text "Upgrade", Some (text "WebSocket"))]) [] None None (Some (text "dGhlIHNhbXBsZSBub25jZQ==")).
Example ws_validate_ex : ws_validate (ex_answer (text "s3pPLMBiTxaQ9kYGzzhZRbK+xOo=")) = Some WS_OK /\ ws_validate (ex_answer (text "t3pPLMBiTxaQ9kYGzzhZRbK+xOo=")) = Some WS_ERROR /\
  Base.bytes (text "dGhlIHNhbXBsZSBub25jZQ==").
Proof. split; [vm_compute; reflexivity|]. split; [vm_compute; reflexivity|]. unfold Base.bytes; repeat constructor; vm_compute; reflexivity. Qed.
Example ws_extension_tokens_ex : extension_tokens 1 (text "deflate;bits=8,mux,x;y;z") = Some (Some (text "deflate,mux,x")). Proof. vm_compute. reflexivity. Qed.
Example ws_field_set_get_ex : ws_get_field (ws_set_field (ws_set_field (ws_init (http_init [])) (text "Host") (text "a")) (text "Host") (text "b")) (text "Host") = Some (text "b").
Proof. vm_compute. reflexivity. Qed.

(** ** What does not hold *)
(** A response can be made to every request that passes the test: refuted. Without a key the pointer to it is read through. *)
Theorem ws_response_safe_refuted : ~ (forall room c d h rest, parse None (http_init d) c = Some (RET_DONE, h, rest) -> is_websocket h = WS_OK ->
  response room (ws_init h) [] <> None).
Proof.
  intros H. specialize (H 100 [BMem (text "GET / HTTP/1.1" ++ [13; 10] ++ text "Upgrade: websocket" ++ [13; 10; 13; 10])] []).
  destruct (parse None (http_init []) _) as [[[r h] rest]|] eqn:E; [|vm_compute in E; discriminate].
  assert (R : r = RET_DONE /\ is_websocket h = WS_OK /\ response 100 (ws_init h) [] = None) by (vm_compute in E; inversion E; vm_compute; auto).
  destruct R as (-> & R1 & R2). exact (H h rest eq_refl R1 R2).
Qed.
(** A server that is offered an extension can answer whatever the allocator does: refuted. The comma behind the last token is written beyond
    the bytes asked for. *)
Theorem ws_extension_room_refuted : forall v c, In c v -> c <> 44 -> ~ In 0 v -> extension_tokens 0 v = None.
Proof.
  intros v c Hc Nc Z. unfold extension_tokens. destruct (tokens_ok 1 v ltac:(lia) Z) as (e & E & O). unfold extension_tokens in E.
  destruct (StrModel.slice v [44]) as [ps|]; [|discriminate]. cbn [obind] in *. destruct ps as [|p ps]; [|reflexivity]. injection E as <-.
  inversion O as [g Hg| |]; subst. rewrite Forall_forall in Hg. destruct (Hg c Hc) as [<-|[]]. contradiction.
Qed.
(** A client can judge the answer to the request it has just made: refuted. The key is not kept, and reading the answer needs it. *)
Theorem ws_client_key_refuted : ~ (forall rnd w w1 c1 h, request rnd w [] = Some (WS_OK, w1, c1) ->
  ws_validate (mkW h (w_fields w1) (w_uri w1) (w_args w1) (w_key w1)) <> None).
Proof.
  intros H. destruct (request ex_rnd ex_client []) as [[[r w1] c1]|] eqn:E; [|vm_compute in E; discriminate].
  assert (R : r = WS_OK /\ w_key w1 = None) by (vm_compute in E; inversion E; vm_compute; auto). destruct R as [-> R].
  apply (H _ _ _ _ (w_http (ex_answer (text "s3pPLMBiTxaQ9kYGzzhZRbK+xOo="))) E). rewrite R. reflexivity.
Qed.
(** Only the digest of the key is accepted: refuted. Letters of the other case are accepted, although they are other digests in base 64. *)
Theorem ws_validate_digest_refuted : ~ (forall w key a, w_key w = Some key -> ws_validate w = Some WS_OK -> field_get (w_http w) (text "Sec-WebSocket-Accept") = Some a -> a = accept key).
Proof.
  intros H. assert (X : ws_validate (ex_answer (text "S3PPLMBITXAQ9KYGZZHZRBK+XOO=")) = Some WS_OK) by (vm_compute; reflexivity).
  pose proof (H (ex_answer (text "S3PPLMBITXAQ9KYGZZHZRBK+XOO=")) (text "dGhlIHNhbXBsZSBub25jZQ==") (text "S3PPLMBITXAQ9KYGZZHZRBK+XOO=") eq_refl X eq_refl) as Y. vm_compute in Y. discriminate.
Qed.
(** Setting a field that exists replaces it, in whatever spelling, as looking it up compares: refuted. The bucket depends on the case. *)
Theorem ws_field_case_refuted : ~ (forall w k k' v, spelled k k' -> ws_get_field (ws_set_field w k v) k' = Some v).
Proof.
  intros H. specialize (H (ws_init (http_init [])) (text "Host") (text "host") (text "a")). vm_compute in H.
  assert (X : None = Some (text "a")); [|discriminate]. apply H. constructor; [right; left; split; [split; discriminate|reflexivity]|]. repeat (constructor; [left; reflexivity|]). constructor.
Qed.
