(** C54 (reading HTTP messages), C55 (writing them) and C56 (header fields). *)
Require Import List Arith NArith Lia Bool.
Require Import ZifyBool ZifyNat ZifyN.
Require Import Verif.Base Verif.HttpModel Verif.HttpSpec Verif.HttpProofs.
Require Import String.
Import List ListNotations.
Open Scope list_scope.
Open Scope N_scope.

(** ** C54 *)
(** A message in the chain is read: however its bytes lie in buffers, the fields of the object are those of the text, and what is left in the
    chain is what stands behind the empty line. *)
Theorem http_parse_accepts : forall d c x fs rest, message (content c) x fs rest ->
  exists h c', parse None (http_init d) c = Some (RET_DONE, h, c') /\ holds h x fs /\ content c' = rest.
Proof.
  intros d c x fs rest M. destruct (message_heads _ _ _ _ (http_init d) M eq_refl eq_refl) as (h' & E & HO & F & ER & _).
  pose proof (parse_heads None (http_init d) c) as P. rewrite E in P. destruct P as (c' & C & P).
  eexists _, c'. split; [exact P|]. split; [|exact C]. split; [exact HO|]. split; [exact F|]. split; [exact ER|reflexivity].
Qed.
Print Assumptions http_parse_accepts.

(** What the four outcomes of reading from a new object mean: a message; an empty line in its place; text that is not the beginning of any
    message, which only the error number shows; or the beginning of a message at most. *)
Theorem http_parse_sound : forall d c, exists r h c', parse None (http_init d) c = Some (r, h, c') /\
  (r = RET_DONE /\ (exists x fs, message (content c) x fs (content c') /\ holds h x fs) \/
   r = RET_DONE /\ h = http_init d /\ (exists raw l, content c = raw ++ [10] ++ content c' /\ ~ In 10 raw /\ line_of raw l /\ blanks l) \/
   r = RET_DONE /\ error h <> 200 /\ (forall b x fs rest, ~ message (content c ++ b) x fs rest) \/
   r = RET_OK /\ error h = 200 /\ (forall x fs rest, ~ message (content c) x fs rest)).
Proof.
  intros d c. pose proof (parse_heads None (http_init d) c) as P. destruct (heads_all (http_init d) (content c)) as [[o h] dd] eqn:E.
  destruct P as (c' & C & P). subst dd. destruct o.
  - exists RET_OK, h, c'. split; [exact P|]. right; right; right. split; [reflexivity|]. split.
    + clear P. remember (length (content c)) as n eqn:L. revert E L. generalize (content c).
      assert (G : forall h0 l, (error h0 = 200) -> heads_all h0 l = (More, h, content c') -> error h = 200).
      { intros h0 l. remember (length l) as m eqn:L. revert h0 l L. induction m as [m IH] using lt_wf_ind. intros h0 l -> E0 H.
        destruct (done h0) eqn:D; [rewrite heads_done in H by auto; discriminate|].
        destruct (buf_line l) as [raw [r|]] eqn:B; [|rewrite (heads_more _ _ _ D B) in H; inversion H; subst; auto].
        apply buf_line_spec in B as [-> I]. rewrite heads_line in H by auto. destruct (process_ok h0 raw) as (l0 & LN & PB). rewrite PB in H. unfold line_step in H.
        assert (LL : (length r < length (raw ++ [10]%N ++ r))%nat) by (rewrite app_length; cbn; lia).
        destruct (type h0 =? UNKNOWN).
        - destruct (parse_headline h0 l0) as [q h1] eqn:Q. apply headline_inv in Q as [(_ & -> & ->)|[(x & _ & -> & _ & _ & K1 & K2 & K3 & K4 & K5)|(-> & _)]].
          + apply (IH _ LL _ _ eq_refl) in H; auto.
          + apply (IH _ LL _ _ eq_refl) in H; auto. congruence.
          + discriminate.
        - destruct (parse_field h0 l0) as [q h1] eqn:Q. apply parse_field_inv in Q as [(_ & -> & ->)|[(k & v & _ & -> & ->)|(-> & _)]].
          + apply (IH _ LL _ _ eq_refl) in H; auto.
          + apply (IH _ LL _ _ eq_refl) in H; auto.
          + discriminate. }
      intros l E L. eapply G; [|exact E]. reflexivity.
    + intros x fs rest M. destruct (message_heads _ _ _ _ (http_init d) M eq_refl eq_refl) as (h' & E' & _). congruence.
  - exists RET_DONE, h, c'. split; [exact P|]. right; right; left. split; [reflexivity|]. split.
    + clear P.
      assert (G : forall h0 l, heads_all h0 l = (Bad, h, content c') -> error h = 400 \/ error h = 600).
      { intros h0 l. remember (length l) as m eqn:L. revert h0 l L. induction m as [m IH] using lt_wf_ind. intros h0 l -> H.
        destruct (done h0) eqn:D; [rewrite heads_done in H by auto; discriminate|].
        destruct (buf_line l) as [raw [r|]] eqn:B; [|rewrite (heads_more _ _ _ D B) in H; discriminate].
        apply buf_line_spec in B as [-> I]. rewrite heads_line in H by auto. destruct (process_ok h0 raw) as (l0 & LN & PB). rewrite PB in H. unfold line_step in H.
        assert (LL : (length r < length (raw ++ [10]%N ++ r))%nat) by (rewrite app_length; cbn; lia).
        destruct (type h0 =? UNKNOWN).
        - destruct (parse_headline h0 l0) as [q h1] eqn:Q. apply headline_inv in Q as [(_ & -> & ->)|[(x & _ & -> & _)|(-> & X & _)]].
          + apply (IH _ LL _ _ eq_refl) in H; auto.
          + apply (IH _ LL _ _ eq_refl) in H; auto.
          + inversion H; subst. auto.
        - destruct (parse_field h0 l0) as [q h1] eqn:Q. apply parse_field_inv in Q as [(_ & -> & ->)|[(k & v & _ & -> & ->)|(-> & e & X & ->)]].
          + apply (IH _ LL _ _ eq_refl) in H; auto.
          + apply (IH _ LL _ _ eq_refl) in H; auto.
          + inversion H; subst. exact X. }
      apply G in E. lia.
    + intros b x fs rest M. destruct (message_heads _ _ _ _ (http_init d) M eq_refl eq_refl) as (h' & E' & _).
      pose proof (heads_app (http_init d) (content c) b) as A. rewrite E in A. congruence.
  - exists RET_DONE, (set_done h false), c'. split; [exact P|]. apply heads_message in E as [(x & fs & M & HO & F & ER)|(raw & l & E & I & L & B & ->)]; [| |reflexivity|reflexivity].
    + left. split; [reflexivity|]. exists x, fs. split; [exact M|]. split; [exact HO|]. split; [exact F|]. split; [exact ER|reflexivity].
    + right; left. split; [reflexivity|]. split; [reflexivity|]. exists raw, l. auto.
Qed.
Print Assumptions http_parse_sound.

(** A text has at most one meaning. *)
Theorem http_message_unique : forall d x fs rest x' fs' rest', message d x fs rest -> message d x' fs' rest' -> x = x' /\ fs = fs' /\ rest = rest'.
Proof.
  intros d x fs rest x' fs' rest' M M'.
  destruct (message_heads _ _ _ _ (http_init []) M eq_refl eq_refl) as (h & E & HO & F & _).
  destruct (message_heads _ _ _ _ (http_init []) M' eq_refl eq_refl) as (h' & E' & HO' & F' & _).
  rewrite E in E'. inversion E'; subst. rewrite HO in HO'. inversion HO'; subst. rewrite F in F'. auto.
Qed.
Print Assumptions http_message_unique.

(** However the bytes arrive, in however many calls, the answer, the object and the bytes left are those of one call with all of them;
    also with a handler for the body, if it does not care how its own input is cut. *)
Theorem http_parse_pieces : forall f h pieces, fit f -> pieces <> [] -> alike (feed f h [] pieces) (parse f h (concat pieces)).
Proof. intros f h [|p r] F N'; [congruence|]. apply (feed_pieces f h [] p r F). Qed.
Print Assumptions http_parse_pieces.
(** Buffers in files and empty ones do not matter either. *)
Theorem http_parse_buffers : forall f h c c', fit f -> content c = content c' -> alike (parse f h c) (parse f h c').
Proof.
  intros f h c c' F C. apply (agrees_alike f (heads_all h (content c))); [auto|apply parse_heads|rewrite C; apply parse_heads].
Qed.
Print Assumptions http_parse_buffers.

(** A malformed line is reported: refuted. The comparison binds tighter than the assignment, and the answer is that all is done. *)
Theorem http_error_refuted : ~ (forall d c r h c', parse None (http_init d) c = Some (r, h, c') -> error h <> 200 -> r = RET_ERROR).
Proof.
  intros H. specialize (H [] [BMem (text "BOGUS / HTTP/1.1" ++ [13; 10])]). vm_compute in H. specialize (H _ _ _ eq_refl).
  assert (X : 1 = 2) by (apply H; discriminate). discriminate.
Qed.
(** Blanks at the end of a line do not matter: refuted. A request whose version is followed by a blank is malformed. *)
Theorem http_trailing_blank_refuted : ~ (forall d l b h c h' c', blanks b ->
  parse None (http_init d) [BMem (l ++ [13; 10; 13; 10])] = Some (RET_DONE, h, c) -> parse None (http_init d) [BMem (l ++ b ++ [13; 10; 13; 10])] = Some (RET_DONE, h', c') ->
  error h = error h').
Proof.
  intros H. assert (B : blanks [32]) by (constructor; [left; reflexivity|constructor]).
  destruct (parse None (http_init []) [BMem (text "GET / HTTP/1.1" ++ [13; 10; 13; 10])]) as [[[r h] c]|] eqn:E; [|vm_compute in E; discriminate].
  destruct (parse None (http_init []) [BMem (text "GET / HTTP/1.1" ++ [32] ++ [13; 10; 13; 10])]) as [[[r' h'] c']|] eqn:E'; [|vm_compute in E'; discriminate].
  assert (R : r = RET_DONE /\ error h = 200) by (vm_compute in E; inversion E; split; reflexivity).
  assert (R' : r' = RET_DONE /\ error h' = 400) by (vm_compute in E'; inversion E'; split; reflexivity).
  destruct R as [-> R], R' as [-> R']. specialize (H _ _ _ _ _ _ _ B E E'). congruence.
Qed.
(** Status numbers are read as they stand: refuted. They wrap at 32 bits. *)
Theorem http_status_refuted : ~ (forall d c h c' v s t fs, parse None (http_init d) c = Some (RET_DONE, h, c') -> holds h (Resp v s t) fs -> s = 200 ->
  exists l rest, content c = text "HTTP/1.1 200" ++ l ++ rest).
Proof.
  intros H. set (t := text "HTTP/1.1 4294967496 OK" ++ [10; 10]) in *.
  destruct (parse None (http_init []) [BMem t]) as [[[r h] c]|] eqn:E; [|vm_compute in E; discriminate].
  assert (R : r = RET_DONE /\ holds h (Resp 1 200 (Some (text "OK"))) []) by (vm_compute in E; inversion E; vm_compute; auto).
  destruct R as [-> R]. destruct (H _ _ _ _ _ _ _ _ E R eq_refl) as (l & rest & X). vm_compute in X. discriminate.
Qed.

Example http_ex_message :
  message (text " get  /a?b=1&c HTTP/1.1" ++ [13; 10] ++ text "Host : x:80 " ++ [10] ++ text "Empty" ++ [13; 0; 10] ++ text "  " ++ [10] ++ text "body")
    (Req 0 (text "/a") (Some (text "b=1&c")) 1) [(text "Host", Some (text "x:80 ")); (text "Empty", None)] (text "body").
Proof.
  set (c := [BMem (text " get  /a?b"); BNull; BFile; BMem (text "=1&c HTTP/1.1" ++ [13]); BMem ([10] ++ text "Host : x:80 " ++ [10] ++ text "Empty" ++ [13; 0; 10] ++ text "  " ++ [10] ++ text "body")]).
  destruct (http_parse_sound [] c) as (r & h & c' & P & X). vm_compute in P. inversion P; subst r h c'. clear P.
  destruct X as [(_ & x & fs & M & HO & F & _)|[(_ & X & _)|[(_ & X & _)|(X & _)]]]; try discriminate; [|destruct X; reflexivity].
  vm_compute in HO, F. inversion HO; subst. exact M.
Qed.
(** The same message arriving in three calls, cut inside a line end. *)
Example http_ex_pieces :
  exists h, feed None (http_init []) [] [[BMem (text "GE")]; [BMem (text "T / HTTP/1.0" ++ [13]); BNull]; [BMem ([10; 13; 10] ++ text "rest")]] = Some (RET_DONE, h, [BMem (text "rest")]) /\
    holds h (Req 0 (text "/") None 0) [].
Proof. eexists. split; [vm_compute; reflexivity|]. vm_compute. auto. Qed.
(** A handler that takes the bytes of the body as they come, and wants four of them. *)
Definition take4 : handler := fun h c =>
  let got := data h ++ content c in
  if (length got <? 4)%nat then (RET_OK, mkH (fields h) (body h) got (uri h) (args h) (response_msg h) (error h) (status h) (method h) (version h) (type h) (done h), [])
  else (RET_DONE, mkH (fields h) (body h) (firstn 4 got) (uri h) (args h) (response_msg h) (error h) (status h) (method h) (version h) (type h) (done h), [BMem (skipn 4 got)]).
Example http_ex_handler : fit (Some take4).
Proof.
  split.
  - intros h c c' C. unfold take4. rewrite C. destruct (length (data h ++ content c') <? 4)%nat; cbn; auto.
  - intros h a b r h1 rest D. unfold take4. rewrite content_app. destruct (Nat.ltb_spec (length (data h ++ content a)) 4) as [L|L]; intros H; injection H as <- <- <-; cbn [RET_OK RET_DONE N.eqb].
    + split; [exact D|]. cbn [data app fields body uri args response_msg error status method version type done]. rewrite <- app_assoc. destruct (length (data h ++ content a ++ content b) <? 4)%nat; cbn; auto.
    + assert (E : (length (data h ++ content a ++ content b) <? 4)%nat = false) by (apply Nat.ltb_ge; rewrite app_assoc, app_length; lia).
      rewrite E. cbn [alike content app]. rewrite app_assoc, app_nil_r. rewrite firstn_app, skipn_app.
      replace (4 - length (data h ++ content a))%nat with 0%nat by lia. cbn [firstn skipn]. rewrite !app_nil_r. auto.
Qed.

(** ** C55 *)
(** The bytes that are written: the first line, the fields in the order they were put in, an empty line, then the body; in buffers of 1024
    bytes behind the chain that was given. *)
Theorem http_generate_text : forall h x l c, to_write h = Some x -> head_text x l ->
  exists h' new, generate None h c = Some (RET_DONE, h', c ++ new ++ body h) /\ packed new (l ++ fields_text (fields h)) /\ body h' = [] /\
    to_write h' = Some x /\ fields h' = fields h.
Proof.
  intros h x l c T L. destruct (generate_text h x l c T L) as (h' & new & G & P & ->). eexists _, new. split; [exact G|]. split; [exact P|]. auto.
Qed.
Print Assumptions http_generate_text.

(** With a handler for the body, whatever it does: while it wants to wait nothing is written, and the chain stays; when it is done, the message as it left
    it is written, with its body; when it fails there is no chain. *)
Theorem http_generate_handler : forall f h c, type h <> UNKNOWN -> done h = false ->
  (fst (f h) = RET_OK -> exists h', generate (Some f) h c = Some (RET_OK, h', c) /\ body h' = body (snd (f h)) /\ fields h' = fields (snd (f h)) /\
    to_write h' = to_write (snd (f h)) /\ done h' = done (snd (f h))) /\
  (fst (f h) = RET_ERROR -> generate (Some f) h c = Some (RET_ERROR, snd (f h), [])) /\
  (fst (f h) = RET_DONE -> forall x l, to_write (snd (f h)) = Some x -> head_text x l ->
    exists h' new, generate (Some f) h c = Some (RET_DONE, h', c ++ new ++ body (snd (f h))) /\ packed new (l ++ fields_text (fields (snd (f h)))) /\ body h' = []).
Proof.
  intros f h c U D. unfold generate at 1 2 3. replace (type h =? UNKNOWN) with false by lia. rewrite D. destruct (f h) as [r h1]. cbn [fst snd]. split; [|split].
  - intros ->. cbn. eexists. split; [reflexivity|]. auto.
  - intros ->. cbn. reflexivity.
  - intros -> x l T L. replace (RET_DONE =? RET_ERROR) with false by reflexivity. replace (RET_DONE =? RET_OK) with false by reflexivity.
    assert (T' : to_write (set_done h1 true) = Some x) by exact T. destruct (generate_text (set_done h1 true) x l c T' L) as (h' & new & G & P & E).
    unfold generate in G. destruct (type (set_done h1 true) =? UNKNOWN) eqn:X; [discriminate|]. replace (done (set_done h1 true)) with true in G by reflexivity.
    exists h', new. split; [exact G|]. split; [exact P|]. rewrite E. reflexivity.
Qed.
Print Assumptions http_generate_handler.

(** A message that is written and read again is the same message, and the body is what is left. *)
Theorem http_round_trip : forall h x, to_write h = Some x -> good_head x -> Forall good_field (fields h) -> forall d,
  exists h' c h2 c2, generate None h [] = Some (RET_DONE, h', c) /\ parse None (http_init d) c = Some (RET_DONE, h2, c2) /\
    holds h2 x (fields h) /\ content c2 = content (body h).
Proof.
  intros h x T G F d. destruct (text_exists x G) as [l L]. destruct (generate_text h x l [] T L) as (h' & new & E & P & _).
  assert (M : message (content (new ++ body h)) x (fields h) (content (body h))).
  { rewrite content_app, (packed_content _ _ P), <- app_assoc. now apply message_text. }
  destruct (http_parse_accepts d _ _ _ _ M) as (h2 & c2 & P2 & HO & C). exists h', (new ++ body h), h2, c2. auto.
Qed.
Print Assumptions http_round_trip.

(** What has been read, from whatever text, can be written and read again: the same message, if its target is not empty and the reason phrase
    of a response is the one of its status. *)
Theorem http_reparse : forall d d' c h c', parse None (http_init d) c = Some (RET_DONE, h, c') -> forall x fs, holds h x fs ->
  match x with Req m u a v => u <> [] \/ a <> None | Resp v s t => match reason s with Some (_, msg) => t = Some msg | None => False end end ->
  exists h1 c1 h2 c2, generate None h [] = Some (RET_DONE, h1, c1) /\ parse None (http_init d') c1 = Some (RET_DONE, h2, c2) /\ holds h2 x fs /\ content c2 = [].
Proof.
  intros d d' c h c' P x fs HO C.
  destruct (http_parse_sound d c) as (r & h0 & c0 & P0 & X). rewrite P in P0. inversion P0; subst r h0 c0. clear P0.
  destruct HO as (HO & F & E & D). subst fs.
  destruct X as [(_ & x0 & fs0 & M & HO0 & F0 & _)|[(_ & -> & _)|[(_ & X & _)|(X & _)]]]; [| discriminate | contradiction | discriminate].
  rewrite HO in HO0. inversion HO0; subst x0. subst fs0.
  destruct M as (raw & l & r & _ & NL & L & FL & HD).
  assert (G : good_head x). { eapply first_line_good; eauto. eapply line_of_no_lf; eauto. }
  assert (B : body h = []).
  { pose proof (parse_heads None (http_init d) c) as PH. destruct (heads_all (http_init d) (content c)) as [[o hh] dd] eqn:EH. destruct PH as (cc & _ & PH). rewrite P in PH.
    clear - PH EH. enough (B : body hh = []). { destruct o; inversion PH; subst; exact B. }
    clear PH. assert (G : forall h0 l, body h0 = [] -> heads_all h0 l = (o, hh, dd) -> body hh = []).
    { clear. intros h0 l. remember (length l) as m eqn:L. revert h0 l L. induction m as [m IH] using lt_wf_ind. intros h0 l -> B H.
      destruct (done h0) eqn:D; [rewrite heads_done in H by auto; inversion H; subst; auto|].
      destruct (buf_line l) as [raw [r|]] eqn:BL; [|rewrite (heads_more _ _ _ D BL) in H; inversion H; subst; auto].
      apply buf_line_spec in BL as [-> I]. rewrite heads_line in H by auto. destruct (process_bytes h0 raw) as [q h1] eqn:Q.
      assert (B1 : body h1 = []).
      { destruct (process_ok h0 raw) as (l0 & _ & PB). rewrite Q in PB. symmetry in PB. unfold line_step in PB.
        clear - PB B. destruct (type h0 =? UNKNOWN).
        - unfold parse_headline, headline_second, headline_third, set_target in PB.
          repeat match goal with H : context [match ?e with _ => _ end] |- _ => destruct e end; inversion PB; subst; exact B.
        - unfold parse_field, malformed in PB. repeat match goal with H : context [match ?e with _ => _ end] |- _ => destruct e end; inversion PB; subst; exact B. }
      destruct (q =? RET_ERROR); [inversion H; subst; auto|]. apply (IH (length r)) in H; auto. rewrite app_length. cbn. lia. }
    exact (G (http_init d) _ eq_refl EH). }
  assert (T : to_write h = Some x).
  { clear - HO. unfold head_of in HO. unfold to_write. destruct (type h =? REQUEST); [destruct (uri h); [exact HO|discriminate]|exact HO]. }
  destruct (http_round_trip h x T G (header_good _ _ _ HD) d') as (h1 & c1 & h2 & c2 & A1 & A2 & A3 & A4). rewrite B in A4. exists h1, c1, h2, c2. auto.
Qed.
Print Assumptions http_reparse.

(** Every request that was read can be written and read again: refuted for the target [?], of which nothing is kept. *)
Theorem http_reparse_refuted : ~ (forall c h c' x fs h1 c1 h2 c2, parse None (http_init []) c = Some (RET_DONE, h, c') -> holds h x fs ->
  generate None h [] = Some (RET_DONE, h1, c1) -> parse None (http_init []) c1 = Some (RET_DONE, h2, c2) -> head_of h2 = Some x).
Proof.
  intros H. destruct (parse None (http_init []) [BMem (text "GET ? HTTP/1.1" ++ [13; 10; 13; 10])]) as [[[r h] c]|] eqn:E; [|vm_compute in E; discriminate].
  assert (R : r = RET_DONE /\ holds h (Req 0 [] None 1) []) by (vm_compute in E; inversion E; vm_compute; auto). destruct R as [-> R].
  destruct (generate None h []) as [[[r1 h1] c1]|] eqn:E1; [|vm_compute in E; inversion E; subst h; vm_compute in E1; discriminate].
  assert (R1 : r1 = RET_DONE /\ c1 = [BMem (text "GET  HTTP/1.1" ++ [13; 10; 13; 10])]) by (vm_compute in E; inversion E; subst h; vm_compute in E1; inversion E1; auto).
  destruct R1 as [-> ->].
  destruct (parse None (http_init []) [BMem (text "GET  HTTP/1.1" ++ [13; 10; 13; 10])]) as [[[r2 h2] c2]|] eqn:E2; [|vm_compute in E2; discriminate].
  assert (R2 : r2 = RET_DONE /\ head_of h2 = Some (Req 0 (text "HTTP/1.1") None 0)) by (vm_compute in E2; inversion E2; vm_compute; auto). destruct R2 as [-> R2].
  specialize (H _ _ _ _ _ _ _ _ _ E R E1 E2). rewrite R2 in H. discriminate.
Qed.
(** A response is written with its own message: refuted, and a status that is not in the table is refused. *)
Theorem http_response_message_refuted : ~ (forall h h' c, type h = RESPONSE -> response_msg h = Some (text "Fine") -> generate None h [] = Some (RET_DONE, h', c) ->
  exists a b, content c = a ++ text "Fine" ++ b).
Proof.
  intros H. set (h := set_msg (set_type (http_init []) RESPONSE) (Some (text "Fine"))).
  destruct (generate None h []) as [[[r h'] c]|] eqn:E; [|vm_compute in E; discriminate].
  assert (R : r = RET_DONE /\ c = [BMem (text "HTTP/1.0 200 OK" ++ [13; 10; 13; 10])]) by (vm_compute in E; inversion E; auto). destruct R as [-> ->].
  destruct (H h _ _ eq_refl eq_refl E) as (a & b & X).
  assert (I : In 70 (content [BMem (text "HTTP/1.0 200 OK" ++ [13; 10; 13; 10])])) by (rewrite X; apply in_or_app; right; left; reflexivity).
  vm_compute in I. repeat destruct I as [I|I]; try discriminate; exact I.
Qed.
Theorem http_unknown_status_refuted : ~ (forall h r h' c, type h = RESPONSE -> 100 <= status h <= 599 -> generate None h [] = Some (r, h', c) -> r = RET_DONE).
Proof.
  intros H. assert (X : RET_ERROR = RET_DONE); [|discriminate].
  eapply (H (set_status (set_type (http_init []) RESPONSE) 418)); [reflexivity|vm_compute; split; discriminate|vm_compute; reflexivity].
Qed.
(** Writing never goes wrong: refuted. An object whose type was not set makes the error exit release a pointer that was never set. *)
Theorem http_generate_safe_refuted : ~ (forall h c, generate None h c <> None).
Proof. intros H. apply (H (http_init []) []). reflexivity. Qed.

(** A handler that waits once, then makes the body. *)
Example http_ex_waits :
  let f := fun h => match response_msg h with None => (RET_OK, set_msg h (Some [])) | _ => (RET_DONE, set_body h [BMem (text "body")]) end in
  let h := set_type (http_init []) REQUEST in
  exists h1 h2, generate (Some f) h [BFile] = Some (RET_OK, h1, [BFile]) /\ done h1 = false /\
    generate (Some f) h1 [BFile] = Some (RET_DONE, h2, [BFile; BMem (text "GET / HTTP/1.0" ++ [13; 10; 13; 10]); BMem (text "body")]).
Proof. eexists _, _. vm_compute. repeat split; reflexivity. Qed.

(** A request with 2000 bytes of arguments and a body; the head takes two buffers. *)
Example http_ex_round_trip :
  let h := set_body (set_fields (set_method (set_uri (set_type (http_init []) REQUEST) None (Some (repeat 97 2000))) 1)
             [(text "Host", Some (text "melon")); (text "X", None); (text "Host", Some (text "b"))]) [BMem (text "body")] in
  (exists x, to_write h = Some x /\ good_head x) /\ Forall good_field (fields h) /\
  exists h' b1 b2, generate None h [] = Some (RET_DONE, h', [BMem b1; BMem b2; BMem (text "body")]) /\ length b1 = 1024%nat.
Proof.
  split; [eexists; split; [vm_compute; reflexivity|]|split].
  - split; [reflexivity|]. split; [reflexivity|]. split; [|split].
    + constructor; [|constructor]. split; [unfold is_blank; lia|discriminate].
    + intros [X|[]]; discriminate.
    + split; [discriminate|]. change (Forall word_byte (repeat 97 2000)). apply Forall_forall. intros c I. apply repeat_spec in I. subst. split; [unfold is_blank; lia|discriminate].
  - assert (N1 : forall c, In c (text "HostX") -> name_byte c /\ c <> 10).
    { intros c I. vm_compute in I. repeat destruct I as [<-|I]; [..|destruct I]; (split; [split; [unfold is_blank; lia|discriminate]|discriminate]). }
    assert (GF : forall k v, k <> [] -> incl k (text "HostX") -> match v with None => True | Some v => starts_dark v /\ ~ In 10 v end -> good_field (k, v)).
    { intros k v NK IK GV. split; [exact NK|]. split; [|exact GV]. apply Forall_forall. intros c I. apply N1, IK, I. }
    assert (SD : forall l, match l with c :: _ => negb (blank c) | [] => false end = true -> starts_dark l).
    { intros [|c l] B; [discriminate|]. exists c, l. split; auto. apply blank_not. now destruct (blank c). }
    assert (LO : forall l, forallb (fun c => negb (c =? 10)) l = true -> ~ In 10 l). { intros l A I. rewrite forallb_forall in A. apply A in I. discriminate. }
    cbn [fields set_body set_fields]. apply Forall_cons; [apply GF|apply Forall_cons; [apply GF|apply Forall_cons; [apply GF|apply Forall_nil]]]; try discriminate; try exact Logic.I;
      try (split; [apply SD; reflexivity|apply LO; reflexivity]); intros c I; vm_compute in I |- *; tauto.
  - eexists _, _, _. split; vm_compute; reflexivity.
Qed.

(** ** C56 *)
(** Looking up a field: the value of the first field of that name; all values of that name, joined by commas. *)
Theorem http_field_get_partial : forall h k, plain (fields h) -> one_spelling k (fields h) -> first_value k (fields h) (field_get h k).
Proof. intros h k P O1. exact (get_first k (fields h) P O1). Qed.
Print Assumptions http_field_get_partial.
Theorem http_field_all_partial : forall h k, plain (fields h) -> one_spelling k (fields h) -> exists l, all_values k (fields h) l /\
  (N.of_nat (length (concat l) + length l) < 2 ^ 32 - 1 -> field_iterator h k = Some (if match l with [] => true | _ => false end then None else Some (commas l))).
Proof.
  intros h k P O1. exists (field_values h k). split; [exact (values_all k (fields h) P O1)|]. intros L. unfold field_iterator.
  rewrite total_length. cbn [N.add]. rewrite (proj2 (N.ltb_lt _ _)) by lia. rewrite join_commas. now destruct (field_values h k).
Qed.
Print Assumptions http_field_all_partial.
(** Setting a field: its value is found afterwards, and fields of other names keep theirs. *)
Theorem http_field_set : forall h k v, exists h', field_set h k (Some v) = Some h' /\ field_get h' k = Some v /\
  (plain (fields h) -> forall k2, ~ spelled k2 k ->
     (forall w, first_value k2 (fields h) w <-> first_value k2 (fields h') w) /\ (forall l, all_values k2 (fields h) l <-> all_values k2 (fields h') l)).
Proof.
  intros h k v. eexists. split; [reflexivity|]. split.
  - unfold field_get, field_find. cbn [fields set_fields]. now rewrite replace_find.
  - intros P. apply (replace_other k v (fields h) P).
Qed.
Print Assumptions http_field_set.
(** Removing a field: no field of that name is left, and fields of other names keep their values. *)
Theorem http_field_remove_partial : forall h k, plain (fields h) -> one_spelling k (fields h) -> (forall f, In f (fields h) -> named k f -> snd f <> None) ->
  (forall f, In f (fields (field_remove h k)) -> ~ named k f) /\
  forall k2, ~ spelled k2 k -> (forall w, first_value k2 (fields h) w <-> first_value k2 (fields (field_remove h k)) w) /\
    (forall l, all_values k2 (fields h) l <-> all_values k2 (fields (field_remove h k)) l).
Proof.
  intros h k P O1 V. unfold field_remove. cbn [fields set_fields]. rewrite remove_all; [|lia|].
  - split; [now apply filter_none|]. now apply filter_other.
  - intros f I S1. apply V; auto. now apply (same_named k (fields h)).
Qed.
Print Assumptions http_field_remove_partial.

(** Names are looked up without regard to case: refuted. The bucket depends on the case. *)
Theorem http_field_case_refuted : ~ (forall h k, plain (fields h) -> first_value k (fields h) (field_get h k)).
Proof.
  intros H. specialize (H (set_fields (http_init []) [(text "Host", Some (text "a"))]) (text "host")).
  assert (P : plain (fields (set_fields (http_init []) [(text "Host", Some (text "a"))]))).
  { intros f [<-|[]] I. vm_compute in I. repeat destruct I as [I|I]; try discriminate; exact I. }
  specialize (H P). vm_compute in H. inversion H; subst. apply H2. vm_compute. constructor; [right; right; split; [split; discriminate|reflexivity]|]. repeat constructor.
Qed.
(** Names with null bytes: refuted. The comparison stops at the null byte. *)
Theorem http_field_null_refuted : ~ (forall h k, one_spelling k (fields h) -> first_value k (fields h) (field_get h k)).
Proof.
  intros H. specialize (H (set_fields (http_init []) [([97; 0; 98], Some (text "a"))]) [97; 0; 129]).
  assert (P : one_spelling [97; 0; 129] (fields (set_fields (http_init []) [([97; 0; 98], Some (text "a"))]))).
  { intros f [<-|[]] X. inversion X; subst. inversion H5; subst. inversion H7; subst. unfold same_letter in H6. lia. }
  specialize (H P). assert (E : field_get (set_fields (http_init []) [([97; 0; 98], Some (text "a"))]) [97; 0; 129] = Some (text "a")) by (vm_compute; reflexivity).
  rewrite E in H. cbn [fields set_fields] in H. inversion H as [|f r NM|f r v NM L]; subst; [|inversion L].
  inversion NM as [|? ? ? ? _ NM1]; subst. inversion NM1 as [|? ? ? ? _ NM2]; subst. inversion NM2 as [|? ? ? ? X _]; subst. unfold same_letter in X. lia.
Qed.
(** Removing takes all fields of the name away: refuted. A field without a value stays, and so do those behind it. *)
Theorem http_field_remove_refuted : ~ (forall h k, plain (fields h) -> one_spelling k (fields h) -> forall f, In f (fields (field_remove h k)) -> ~ named k f).
Proof.
  intros H. set (h := set_fields (http_init []) [(text "A", None); (text "A", Some (text "b"))]).
  apply (H h (text "A")) with (f := (text "A", None)).
  - intros f I Z. destruct I as [<-|[<-|[]]]; vm_compute in Z; destruct Z as [Z|[]]; discriminate.
  - intros f I _. destruct I as [<-|[<-|[]]]; reflexivity.
  - vm_compute. auto.
  - apply spelled_refl.
Qed.
(** A field can be set without a value: refuted, the null pointer is read through. *)
Theorem http_field_set_null_refuted : ~ (forall h k v, field_set h k v <> None).
Proof. intros H. exact (H (http_init []) [] None eq_refl). Qed.

Example http_ex_fields :
  let h := set_fields (http_init []) [(text "Accept", Some (text "a")); (text "Host", Some (text "h")); (text "Accept", None); (text "Accept", Some (text "b"))] in
  plain (fields h) /\ one_spelling (text "Accept") (fields h) /\ field_get h (text "Accept") = Some (text "a") /\
  field_iterator h (text "Accept") = Some (Some (text "a,b")) /\ first_value (text "Accept") (fields h) (Some (text "a")).
Proof.
  cbv zeta. set (h := set_fields _ _).
  assert (P : plain (fields h)). { intros f I Z. repeat destruct I as [<-|I]; [..|destruct I]; vm_compute in Z; repeat destruct Z as [Z|Z]; try discriminate; exact Z. }
  assert (O1 : one_spelling (text "Accept") (fields h)).
  { intros f I X. repeat destruct I as [<-|I]; [..|destruct I]; try reflexivity. apply spelled_lower in X. discriminate. }
  repeat split; auto; try (vm_compute; reflexivity). apply (http_field_get_partial h (text "Accept") P O1).
Qed.

(** ** The words *)
(** The versions and methods, in the order of their numbers; and each status has its number in decimal digits, a phrase, and a row of its own. *)
Theorem http_tables :
  http_version = map text ["HTTP/1.0"; "HTTP/1.1"]%string /\
  http_method = map text ["GET"; "POST"; "HEAD"; "PUT"; "DELETE"; "TRACE"; "CONNECT"; "OPTIONS"]%string /\
  Forall (fun r => digits (snd (fst r)) /\ number (snd (fst r)) = snd r /\ 100 <= snd r < 1000 /\ fst (fst r) <> []) http_status /\
  NoDup (map snd http_status) /\
  reason 200 = Some (text "200"%string, text "OK"%string) /\ reason 101 = Some (text "101"%string, text "Switching Protocols"%string) /\
  reason 404 = Some (text "404"%string, text "Not Found"%string).
Proof.
  split; [reflexivity|]. split; [reflexivity|]. split.
  - assert (B : forallb (fun r => forallb (fun c => (48 <=? c) && (c <=? 57)) (snd (fst r)) && (number (snd (fst r)) =? snd r) && (100 <=? snd r) && (snd r <? 1000) &&
      match fst (fst r) with [] => false | _ => true end) http_status = true) by (vm_compute; reflexivity).
    apply Forall_forall. intros [[m d] n] I. apply (proj1 (forallb_forall _ _) B) in I. cbn [fst snd] in *. rewrite !andb_true_iff in I. destruct I as ((((D & E) & L) & U) & P).
    split; [|split; [lia|split; [lia|destruct m; discriminate]]]. apply Forall_forall. intros c C. apply (proj1 (forallb_forall _ _) D) in C. lia.
  - split; [|repeat split; reflexivity]. vm_compute. repeat (constructor; [cbn [In]; intuition discriminate|]). constructor.
Qed.
Print Assumptions http_tables.
