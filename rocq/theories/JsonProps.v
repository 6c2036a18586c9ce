(** C25, C26, C27 and C45: JSON. *)
Require Import List Arith NArith ZArith Bool Lia SpecFloat.
Require Import Verif.Base Verif.RbModel Verif.StrModel Verif.StrSpec Verif.StrProofs.
Require Import Verif.JsonNumModel Verif.JsonModel Verif.JsonSpec Verif.JsonEncProofs Verif.JsonProofs Verif.JsonSafeProofs Verif.JsonPolicyProofs.
Require Import Verif.JsonObjModel Verif.JsonObjSpec Verif.JsonObjProofs.
Import ListNotations.
Open Scope N_scope.

(** ** C25: round trip *)
(** Every document of the grammar of RFC 8259 with numbers restricted to integers up to [2^53], without repeated keys and with surrogates
    left out, is decoded to the value it denotes, wherever space stands and however characters are escaped. *)
Theorem json_decode_documents_partial :
  forall look term v s, sound_look look -> document v s -> decode look no_policy term s = Ok v.
Proof. intros look term v s Hl. exact (decode_complete look Hl term v s). Qed.
Print Assumptions json_decode_documents_partial.

(** Behind a document nothing but space is taken: any other byte makes the decoder refuse the text. *)
Theorem json_trailing_refused :
  forall look term v s c r, sound_look look -> document v s -> ~ In c [32; 9; 10; 13] -> decode look no_policy term (s ++ c :: r) = Bad 0.
Proof.
  intros look term v s c r Hl Hd Hc. apply (decode_trailing look Hl term v s c r Hd). destruct (is_blank c) eqn:E; [|reflexivity]. apply blank_iff in E. contradiction.
Qed.
Print Assumptions json_trailing_refused.
Example json_trailing_meets : document (JArr [JTrue]) [91; 116; 114; 117; 101; 93] /\ ~ In 93 [32; 9; 10; 13] /\
  decode (fun _ _ => None) no_policy true ([91; 116; 114; 117; 101; 93] ++ [93]) = Bad 0.
Proof.
  split; [|split; [cbn; intuition discriminate|reflexivity]]. split; [exact I|]. exists [], [91; 116; 114; 117; 101; 93], []. split; [reflexivity|]. split; [constructor|]. split; [|constructor].
  apply v_arr. apply (e_last JTrue [] [116; 114; 117; 101] []); [constructor|apply v_true|constructor].
Qed.

(** A container of such values (no empty array, no value without type) is written as a document that denotes it, and reading that text
    gives the value back. Missing from the full statement: other numbers and empty arrays; see the refutations. *)
Theorem json_round_trip_partial :
  forall look term v, sound_look look -> plain v -> is_container v ->
    exists s enough, document v s /\ decode look no_policy term s = Ok v /\ forall limit, enough <= limit -> encode limit v = Ok s.
Proof.
  intros look term v Hl Hp Hc. exists (text v), (2 * N.of_nat (length (text v))).
  destruct (round_trip_ok look term (2 * N.of_nat (length (text v))) v Hl Hp Hc (N.le_refl _)) as (s & He & Hd & Hr).
  assert (Hpr : printable v) by (apply plain_printable; exact Hp).
  rewrite (encode_text _ _ Hpr (N.le_refl _)) in He. injection He as <-. split; [exact Hd|]. split; [exact Hr|].
  intros limit H. apply encode_text; assumption.
Qed.
Print Assumptions json_round_trip_partial.

(** An object with an array (true, -12 and a string with a quote in it) under a and an empty object under the empty key. *)
Definition sample : json := JObj [([97], JArr [JTrue; JNum (z2d (-12)); JStr [120; 34; 121]]); ([], JObj [])].
Example json_round_trip_meets : sound_look find_key /\ plain sample /\ is_container sample /\
  encode 100 sample = Ok [123; 34; 97; 34; 58; 91; 116; 114; 117; 101; 44; 45; 49; 50; 44; 34; 120; 92; 34; 121; 34; 93; 44; 34; 34; 58; 123; 125; 125].
Proof.
  split; [apply find_key_exact|]. split; [|split; [exact I|vm_compute; reflexivity]].
  constructor.
  - repeat constructor; cbn [map fst In]; intuition discriminate.
  - repeat constructor.
  - cbn [In]. intros p [<-|[<-|[]]]; cbn [snd].
    + constructor; [discriminate|]. cbn [In]. intros v [<-|[<-|[<-|[]]]]; constructor; [lia|repeat constructor].
    + constructor; [constructor|constructor|intros p []].
Qed.
(** An object with an array (1 and a string written with a numeric and a letter escape) under k, with spaces, tabs and line ends. *)
Definition spaced : list N := [32; 123; 32; 34; 107; 34; 9; 58; 10; 91; 32; 49; 32; 44; 13; 34; 92; 117; 48; 48; 101; 57; 92; 110; 34; 93; 32; 125; 10].
Ltac wsok := solve [repeat (apply Forall_cons; [cbn; tauto|]); apply Forall_nil].
Example json_documents_meets : document (JObj [([107], JArr [JNum (z2d 1); JStr [195; 169; 10]])]) spaced.
Proof.
  split; [exact I|]. exists [32], (removelast (tl spaced)), [10]. split; [reflexivity|]. split; [wsok|]. split; [|wsok].
  apply v_obj; [|repeat constructor; cbn; tauto].
  apply (m_last [107] (JArr [JNum (z2d 1); JStr [195; 169; 10]]) [32] [34; 107; 34] [9] [10] [91; 32; 49; 32; 44; 13; 34; 92; 117; 48; 48; 101; 57; 92; 110; 34; 93] [32]);
    try wsok.
  - exists false, [107]. split; [|reflexivity]. apply ch_raw; try discriminate; [reflexivity|constructor].
  - apply v_arr. apply (e_more (JNum (z2d 1)) [32] [49] [32] [JStr [195; 169; 10]]); try wsok.
    + apply v_int; [lia|]. left. split; [lia|]. split; [split; [discriminate|constructor; [lia|constructor]]|]. split; [reflexivity|intros C; discriminate C].
    + apply (e_last (JStr [195; 169; 10]) [13] [34; 92; 117; 48; 48; 101; 57; 92; 110; 34] []); try wsok.
      apply v_str. exists true, [92; 117; 48; 48; 101; 57; 92; 110]. split; [|reflexivity].
      apply (ch_hex true 48 48 101 57 0 0 14 9 [10]); try reflexivity.
      * apply (hex_dec 48). lia.
      * apply (hex_dec 48). lia.
      * apply (hex_low 101). lia.
      * apply (hex_dec 57). lia.
      * left. reflexivity.
      * apply (ch_esc true 110 10); [cbn; tauto|constructor].
Qed.

(** The full round trip fails: an empty array comes back as an array with one element that has no type; *)
Theorem json_empty_array_refuted :
  forall look term, encode 1000 (JArr []) = Ok [91; 93] /\ decode look no_policy term [91; 93] = Ok (JArr [JNone]).
Proof. intros look term. split; [reflexivity|]. destruct term; reflexivity. Qed.
Print Assumptions json_empty_array_refuted.
(** the double nearest to 0.15 comes back as its neighbour; *)
Theorem json_fraction_refuted :
  let d := S754_finite false 5404319552844595 (-55) in forall look term, exists s,
    encode 1000 (JArr [JNum d]) = Ok s /\ s = [91; 48; 46; 49; 53; 48; 48; 48; 48; 93] /\
    decode look no_policy term s = Ok (JArr [JNum (S754_finite false 5404319552844596 (-55))]).
Proof. intros d look term. eexists. split; [vm_compute; reflexivity|]. split; [reflexivity|]. destruct term; vm_compute; reflexivity. Qed.
Print Assumptions json_fraction_refuted.
(** a small number comes back as zero; *)
Theorem json_small_number_refuted :
  let d := S754_finite false 4503599627370496 (-82) in let s := [91; 48; 46; 48; 48; 48; 48; 48; 48; 93] in
  forall look term, encode 1000 (JArr [JNum d]) = Ok s /\ decode look no_policy term s = Ok (JArr [JNum (z2d 0)]).
Proof. intros d s look term. split; [vm_compute; reflexivity|destruct term; vm_compute; reflexivity]. Qed.
Print Assumptions json_small_number_refuted.
(** when no larger block can be had, an object is cut short and the call still succeeds. *)
Theorem json_encode_cut_refuted :
  let v := JObj [([97], JStr (repeat 120 600))] in exists s,
    encode 512 v = Ok s /\ length s = 512%nat /\ forall look term, decode look no_policy term s = Bad 0.
Proof. intros v. eexists. split; [vm_compute; reflexivity|]. split; [reflexivity|]. intros look term. destruct term; vm_compute; reflexivity. Qed.
Print Assumptions json_encode_cut_refuted.

(** Whatever the value and however large a block can be had, no byte is written outside the block. *)
Theorem json_encode_in_bounds : forall limit v, encode limit v <> Overrun.
Proof. exact encode_in_bounds. Qed.
Print Assumptions json_encode_in_bounds.

(** ** C26: arbitrary texts *)
(** Reading any text that is followed by a null byte, has none inside, and has no ten digits in a row ends, with a value or the answer -1,
    without touching memory outside the text and the blocks allocated. *)
Theorem json_decode_safe_partial :
  forall look p s, ~ In 0 s -> ~ long_run s ->
    (exists v, decode look p true s = Ok v) \/ (exists e, decode look p true s = Bad e).
Proof.
  intros look p s H0 Hr. pose proof (decode_good true look p s) as H. destruct (decode look p true s) as [v|e| | | |]; eauto; try contradiction. discriminate.
Qed.
Print Assumptions json_decode_safe_partial.
(** Each condition is there for one kind of failure only, and reading always ends. *)
Theorem json_decode_failures :
  forall look p term s, match decode look p term s with
    | Ok _ | Bad _ => True
    | Overrun => In 0 s
    | Overread => term = false
    | Arith => long_run s
    | Stuck => False
    end.
Proof. intros look p term s. exact (decode_good term look p s). Qed.
Print Assumptions json_decode_failures.
Example json_decode_safe_meets : ~ In 0 spaced /\ ~ long_run spaced.
Proof.
  split; [cbn; intuition discriminate|]. intros (a & ds & b & E & Hl & Hd).
  assert (H : forall n a, (n < 20)%nat -> spaced = a ++ ds ++ b -> length a = n -> False).
  { intros n a' Hn E' La. assert (Hx : firstn 10 (skipn n spaced) = ds).
    { rewrite E', <- La, skipn_app, skipn_all, Nat.sub_diag. cbn [skipn app]. rewrite <- Hl, firstn_app, firstn_all, Nat.sub_diag. cbn [firstn]. apply app_nil_r. }
    rewrite <- Hx in Hd. assert (Hc : forallb (fun n => negb (forallb (fun c => (48 <=? c) && (c <=? 57)) (firstn 10 (skipn n spaced)))) (seq 0 20) = true) by reflexivity.
    rewrite forallb_forall in Hc. specialize (Hc n (proj2 (in_seq 20 0 n) ltac:(lia))). rewrite negb_true_iff in Hc.
    assert (Ht : forallb (fun c => (48 <=? c) && (c <=? 57)) (firstn 10 (skipn n spaced)) = true); [|congruence].
    apply forallb_forall. intros c Hi. rewrite Forall_forall in Hd. specialize (Hd c Hi). lia. }
  assert (La : length spaced = (length a + (10 + length b))%nat) by (rewrite E, !app_length, Hl; reflexivity).
  apply (H (length a) a); [|exact E|reflexivity]. change (length spaced) with 29%nat in La. lia.
Qed.

(** Without the conditions: null bytes behind a numeric escape are written as that character again and again, *)
Theorem json_decode_overrun_refuted : forall look term, decode look no_policy term [91; 34; 92; 117; 70; 70; 70; 70; 0; 0; 0; 34; 93] = Overrun.
Proof. intros look term. destruct term; vm_compute; reflexivity. Qed.
Print Assumptions json_decode_overrun_refuted.
(** the byte behind the text is read, *)
Theorem json_decode_overread_refuted : forall look, decode look no_policy false [123; 32] = Overread.
Proof. reflexivity. Qed.
Print Assumptions json_decode_overread_refuted.
(** and the exponent overflows. *)
Theorem json_decode_exponent_refuted : forall look term, decode look no_policy term [91; 49; 101; 57; 57; 57; 57; 57; 57; 57; 57; 57; 57; 93] = Arith.
Proof. intros look term. destruct term; vm_compute; reflexivity. Qed.
Print Assumptions json_decode_exponent_refuted.
(** Not every JSON text is accepted, and not every text accepted is JSON: the empty array with a space; a comma behind the last element; TRUE. A pair of
    surrogates is taken for two characters. *)
Theorem json_grammar_refuted :
  forall look term,
    decode look no_policy term [91; 32; 93] = Bad 0 /\
    decode look no_policy term [91; 49; 44; 93] = Ok (JArr [JNum (z2d 1); JNone]) /\
    decode look no_policy term [91; 84; 82; 85; 69; 93] = Ok (JArr [JTrue]) /\
    decode look no_policy term [91; 34; 92; 117; 100; 56; 51; 100; 92; 117; 100; 101; 48; 48; 34; 93] = Ok (JArr [JStr [237; 160; 189; 237; 184; 128]]).
Proof. intros look term. destruct term; repeat split; vm_compute; reflexivity. Qed.
Print Assumptions json_grammar_refuted.

(** ** C45: limits *)
(** A value read under a policy keeps to every limit of the policy and is the value read without it. *)
Theorem json_policy_enforced :
  forall look p term s v, decode look p term s = Ok v -> decode look no_policy term s = Ok v /\ obeys p v.
Proof. exact decode_obeys. Qed.
Print Assumptions json_policy_enforced.
(** A document whose value keeps to the limits is read. *)
Theorem json_policy_accepts :
  forall look p term v s, sound_look look -> document v s -> obeys p v -> decode look p term s = Ok v.
Proof. intros look p term v s Hl. exact (decode_within look p term Hl s v). Qed.
Print Assumptions json_policy_accepts.
Example json_policy_meets :
  let doc := [123; 34; 107; 34; 58; 91; 49; 44; 34; 97; 98; 34; 93; 125] in
  let run p := decode find_key p true doc in
  run (mkP 2 1 2 2 1) = Ok (JObj [([107], JArr [JNum (z2d 1); JStr [97; 98]])]) /\
  run (mkP 1 1 2 2 1) = Bad 1 /\ run (mkP 2 1 1 2 1) = Bad 3 /\ run (mkP 2 1 2 1 1) = Bad 4.
Proof. vm_compute. auto. Qed.

(** ** C27: objects and paths *)
(** Any history of updates, searches, removals and iterations on an object answers like a list of members with distinct keys, for keys of
    bytes below 128. *)
Theorem json_object_is_map_partial :
  forall (K V : Type) (str : K -> mstr), (forall k, ascii (s_bytes (str k))) ->
    (forall a b, s_addr (str a) = s_addr (str b) -> s_bytes (str a) = s_bytes (str b)) ->
    forall t0 v0 (ops : list (jop K V)), option_map snd (j_run str (obj_new t0 v0) ops) = Some (answers (fun k => s_bytes (str k)) [] ops).
Proof. intros K V str Ha Hd. exact (object_ok K V str Ha Hd). Qed.
Print Assumptions json_object_is_map_partial.
Definition any_tree {K} (k0 : K) : rbtree K :=
  mkT (mkM (fun _ => 7) (fun _ => 7) (fun _ => 7) (fun _ => true) 7) (fun _ => k0) 7 (fun _ => None) None None None 7 true.
Example json_object_meets :
  let str := fun k : bool => if k then mkS 1 [97; 98] else mkS 2 [99] in
  (forall k, ascii (s_bytes (str k))) /\ (forall a b, s_addr (str a) = s_addr (str b) -> s_bytes (str a) = s_bytes (str b)) /\
  option_map snd (j_run str (obj_new (any_tree true) (fun _ => 0))
    [JUpdate true 5; JUpdate false 6; JUpdate true 7; JSearch true; JIterate; JRemove true; JSearch true; JSearch false]) =
  Some [JDone; JDone; JDone; JFound (Some 7); JAll [([97; 98], 7); ([99], 6)]; JDone; JFound None; JFound (Some 6)].
Proof.
  intros str. split; [intros [|]; repeat constructor|]. split; [intros [|] [|]; cbn; congruence|vm_compute; reflexivity].
Qed.
(** With other keys a member can be lost: the second key (its last two bytes are 195 and 191) is not found among eight. *)
Theorem json_object_is_map_refuted :
  let put v s := JUpdate (mkS v s) v in
  exists outs, option_map snd (j_run (fun k => k) (obj_new (any_tree (mkS 0 [])) (fun _ => 0))
    [put 1 [97; 97; 97; 32]; put 2 [97; 97; 195; 191]; put 3 [97; 97; 97; 65]; put 4 [97; 97; 97; 66]; put 5 [97; 97; 97; 67]; put 6 [97; 97; 97; 68];
     put 7 [97; 97; 97; 69]; put 8 [97; 97; 97; 70]; JSearch (mkS 9 [97; 97; 195; 191])]) = Some (outs ++ [JFound None]).
Proof. exists (repeat JDone 8). vm_compute. reflexivity. Qed.
Print Assumptions json_object_is_map_refuted.

(** The tree search that decoding relies on: on distinct keys of bytes below 128 it gives the position of the key. *)
Theorem json_tree_search_exact_partial :
  forall K (str : K -> mstr) t0 ks k, (forall k, ascii (s_bytes (str k))) ->
    (forall a b, s_addr (str a) = s_addr (str b) -> s_bytes (str a) = s_bytes (str b)) -> NoDup (map (fun k => s_bytes (str k)) ks) ->
    option_map snd (j_run str (obj_new t0 (fun _ => O)) (map (fun p => JUpdate (fst p) (snd p)) (combine ks (seq 0 (length ks))) ++ [JSearch k])) =
    Some (repeat JDone (length ks) ++ [JFound (find_key (map (fun k => s_bytes (str k)) ks) (s_bytes (str k)))]).
Proof. exact tree_look_ok. Qed.
Print Assumptions json_tree_search_exact_partial.
(** With such a search no decoded object has a key twice. *)
Theorem json_decode_keys_once :
  forall look p term s v, exact_look look -> decode look p term s = Ok v -> keys_once v.
Proof. intros look p term s v Hl. exact (decode_once look p term Hl s v). Qed.
Print Assumptions json_decode_keys_once.
Example json_keys_once_meets : exact_look find_key /\
  decode find_key no_policy true [123; 34; 97; 34; 58; 49; 44; 34; 97; 34; 58; 50; 125] = Ok (JObj [([97], JNum (z2d 2))]).
Proof. split; [exact find_key_exact|vm_compute; reflexivity]. Qed.

(** A path leads to what its steps name, provided that a step of digits reads the same backwards and fits 64 bits. *)
Theorem json_path_partial :
  forall look j exp ps w, exact_look look -> keys_once j -> runs (fun c => c = 46) exp ps -> Forall even_step ps ->
    (path_parse look j exp = Some w <-> reach j ps w).
Proof. intros look j exp ps w Hl. exact (path_ok look Hl j exp ps w). Qed.
Print Assumptions json_path_partial.
Example json_path_meets :
  let j := JObj [([97], JArr [JNull; JObj [([120], JTrue)]])] in
  keys_once j /\ runs (fun c => c = 46) [97; 46; 49; 46; 46; 120] [[97]; [49]; [120]] /\ Forall even_step [[97]; [49]; [120]] /\
  path_parse find_key j [97; 46; 49; 46; 46; 120] = Some JTrue.
Proof.
  intros j. split; [|split; [|split; [|reflexivity]]].
  - apply uniq_keys. repeat constructor; cbn; tauto.
  - apply (runs_cons _ [] [97] 46 [49; 46; 46; 120]); [constructor|discriminate|repeat constructor; discriminate|reflexivity|].
    apply (runs_cons _ [46] [49] 46 [46; 120]); [repeat constructor|discriminate|repeat constructor; discriminate|reflexivity|].
    apply (runs_last _ [46; 46] [120]); [repeat constructor|discriminate|repeat constructor; discriminate].
  - repeat constructor; intros (_ & H); inversion H; subst; lia || (split; reflexivity).
Qed.
(** The digits are read backwards: step 10 leads to element 1. *)
Theorem json_path_refuted :
  let l := map (fun n => JNum (z2d (Z.of_nat n))) (seq 0 12) in
  reach (JArr l) [[49; 48]] (JNum (z2d 10)) /\ forall look, path_parse look (JArr l) [49; 48] = Some (JNum (z2d 1)).
Proof.
  intros l. split; [|reflexivity]. apply (r_element l [49; 48] (JNum (z2d 10))); [|reflexivity|constructor].
  split; [discriminate|]. repeat constructor; lia.
Qed.
Print Assumptions json_path_refuted.
