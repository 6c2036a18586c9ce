(** * The log: the theorems *)

From Coq Require Import String Ascii List Arith NArith ZArith Bool Lia.
Require Import ZifyBool ZifyNat ZifyN.
From Verif Require Import Base HttpModel CalModel CalSpec CalProofs LogModel LogSpec LogProofs.
Import ListNotations.
Local Open Scope list_scope.
Local Open Scope N_scope.

(** ** Numbers *)

(** Integers are written with digits that mean them, without needless zeros, and with a
    minus sign if they are negative; numbers with a point have six digits after it. *)
Theorem log_numbers : forall b n z,
  (2 <= b <= 16 -> denotes b (to_base b n) n) /\
  (exists t, decimal z = (if (z <? 0)%Z then [45] else []) ++ t /\ denotes 10 t (Z.abs_N z)) /\
  (exists t f, real_text z = (if (z <? 0)%Z then [45] else []) ++ t ++ 46 :: f /\ denotes 10 t (Z.abs_N z / 1000000) /\
     List.length f = 6%nat /\ Forall (is_digit 10) f /\ number 10 f = Z.abs_N z mod 1000000).
Proof.
  intros b n z. split; [apply to_base_denotes|]. split.
  - unfold decimal. destruct (Z.ltb_spec z 0).
    + exists (to_base 10 (Z.to_N (- z))). split; [reflexivity|]. replace (Z.to_N (- z)) with (Z.abs_N z) by lia. apply to_base_denotes. lia.
    + exists (to_base 10 (Z.to_N z)). split; [reflexivity|]. replace (Z.to_N z) with (Z.abs_N z) by lia. apply to_base_denotes. lia.
  - unfold real_text. cbv zeta. replace (Z.to_N (Z.abs z)) with (Z.abs_N z) by lia. set (a := Z.abs_N z).
    assert (M : a mod 1000000 < 1000000) by (apply N.mod_lt; discriminate).
    destruct (to_base_denotes 10 (a mod 1000000) ltac:(lia)) as (_ & D2 & D3 & _).
    pose proof (to_base_length 10 (a mod 1000000) 5 ltac:(lia) M) as L.
    exists (to_base 10 (a / 1000000)). eexists. split; [reflexivity|]. split; [apply to_base_denotes; lia|].
    set (low := to_base 10 (a mod 1000000)) in *. rewrite app_length, repeat_length. split; [lia|]. split.
    + apply Forall_app. split; [|exact D2]. apply Forall_forall. intros c C. apply repeat_spec in C. subst c. split; [left; lia|reflexivity].
    + unfold number in *. rewrite fold_left_app. replace (fold_left _ (repeat 48 _) 0) with 0; [exact D3|].
      generalize (6 - List.length low)%nat. intros k. induction k as [|k IH]; [reflexivity|exact IH].
Qed.
Print Assumptions log_numbers.

Example log_numbers_case : (decimal (-2147483648), to_base 16 3735928559, real_text (-1500)) = (text "-2147483648", text "deadbeef", text "-0.001500").
Proof. reflexivity. Qed.

(** ** One call *)

(** A call below the level of the log writes nothing.  Any other writes the date, the
    level, the place and the process as far as its level asks for them, and then the
    parts of the message one after the other; the standard error gets the same with the
    level in colour. *)
Theorem log_says : forall set level src func line pid now items,
  level <= 4 -> (0 <= now < 2 ^ 63)%Z -> (- 2 ^ 31 <= line < 2 ^ 31)%Z -> (- 2 ^ 31 <= pid < 2 ^ 31)%Z -> Forall item_ok items ->
  exists ps, process set level src func line pid now (flat_map item_fmt items) (flat_map item_args items) = Some ps /\
    (level < set -> ps = []) /\
    (set <= level -> exists u, moment u (now / 86400) (now mod 86400) /\
       concat (map fst ps) = prefix level (level_name level) u src func line pid ++ flat_map item_text items /\
       concat (map snd ps) = prefix level (coloured level) u src func line pid ++ flat_map item_text items).
Proof.
  intros set level src func line pid now items L NO LI PI F. destruct (N.lt_ge_cases level set) as [G|G].
  - exists []. unfold process. destruct (N.ltb_spec level set); [|lia]. split; [reflexivity|]. split; [reflexivity|lia].
  - destruct (body_items_some items F) as (b & B1 & B2 & B3).
    destruct (process_ok set level src func line pid now _ _ b L G NO LI PI B1 B3) as (u & ps & M & E & X & Y).
    exists ps. split; [exact E|]. split; [lia|]. intros _. exists u. unfold piece, HttpModel.bytes in *. rewrite <- B2. auto.
Qed.
Print Assumptions log_says.

Definition log_items : list item := [Lit (text "port "); Uint 8080; Lit (text " of "); Str (text "host"); Lit (text ": "); Int (-1); Char 10].
Example log_says_case :
  option_map (fun ps => concat (map fst ps)) (process 2 4 (text "a.c") (text "f") 12 77 86399 (flat_map item_fmt log_items) (flat_map item_args log_items)) =
  Some (text "01/01/1970 23:59:59 UTC ERROR: a.c:f:12: PID:77 port 8080 of host: -1" ++ [10]).
Proof. reflexivity. Qed.
Example log_says_met : Forall item_ok log_items.
Proof. unfold log_items. repeat constructor; vm_compute; intuition discriminate. Qed.

(** What is written after the last directive that is known before one that is not: that
    there is an error. *)
Theorem log_wrong_format : forall set level src func line pid now items c rest more,
  level <= 4 -> set <= level -> (0 <= now < 2 ^ 63)%Z -> (- 2 ^ 31 <= line < 2 ^ 31)%Z -> (- 2 ^ 31 <= pid < 2 ^ 31)%Z -> Forall item_ok items ->
  ~ In c (text "sSldcfxXuUiI") ->
  exists ps u, process set level src func line pid now (flat_map item_fmt items ++ 37 :: c :: rest) (flat_map item_args items ++ more) = Some ps /\
    moment u (now / 86400) (now mod 86400) /\
    concat (map fst ps) = prefix level (level_name level) u src func line pid ++ flat_map item_text items ++ text "Log message format error." ++ [10].
Proof.
  intros set level src func line pid now items c rest more L G NO LI PI F C.
  assert (D : directive c = None).
  { unfold directive.
    repeat match goal with |- context [c =? ?n] => destruct (N.eqb_spec c n) as [->|]; [exfalso; apply C; vm_compute; tauto|] end. reflexivity. }
  destruct (body_items items F [] (37 :: c :: rest) more) as (ps & lit & E & X & Q). rewrite (body_wrong lit c rest more D) in E. cbn [obind app] in E, X.
  assert (Q2 : Forall plain (ps ++ [same lit; same log_err_fmt; same [10]])) by (apply Forall_app; split; [exact Q|repeat constructor]).
  destruct (process_ok set level src func line pid now _ _ _ L G NO LI PI E Q2) as (u & qs & M & P & Y & _).
  exists qs, u. split; [exact P|]. split; [exact M|]. unfold piece, HttpModel.bytes in *. rewrite Y, map_app, concat_app, <- X. f_equal.
  cbn [map concat fst same]. unfold same. cbn [fst]. rewrite app_nil_r, <- app_assoc. reflexivity.
Qed.
Print Assumptions log_wrong_format.
(** Two percent signs are no percent sign. *)
Example log_wrong_format_case :
  option_map (fun ps => concat (map fst ps)) (process 0 0 [] [] 0 0 0 (text "%d%% of") [AInt 5]) = Some (text "5Log message format error." ++ [10]).
Proof. reflexivity. Qed.

(** [Real] stands for the numbers below 10^244: [log_says] does not hold for all numbers
    that a [double] can be (about 10^308), as the text is longer than the buffer it is
    written to. *)
Lemma real_too_long : forall m, (10 ^ Z.of_nat 300 * 1000000 <= Z.abs m)%Z -> via_buffer (real_text m) = None.
Proof.
  intros m H. unfold via_buffer. cbv zeta. apply real_text_long in H. destruct (Nat.leb_spec (List.length (real_text m)) 256) as [G|G]; [|reflexivity]. clear - H G. lia.
Qed.
Lemma ten_pow : (10 ^ Z.of_nat 300 * 1000000 <= Z.abs (10 ^ 306))%Z /\ (Z.abs (10 ^ 306) < 10 ^ 314)%Z.
Proof. split; vm_compute; [intros X|]; discriminate || reflexivity. Qed.
Theorem log_real_refuted : ~ (forall m, (Z.abs m < 10 ^ 314)%Z ->
  exists ps, process 0 0 [] [] 0 0 0 (text "%f") [AReal m] = Some ps /\ concat (map fst ps) = real_text m).
Proof.
  intros H. destruct (H (10 ^ 306)%Z (proj2 ten_pow)) as (ps & P & _). clear H. pose proof (real_too_long _ (proj1 ten_pow)) as V.
  revert V P. generalize (10 ^ 306)%Z. intros m V P.
  unfold process in P. change (0 <? 0) with false in P. change (2 <=? 0) with false in P. change (level_piece 0) with (@nil piece) in P.
  destruct (time2utc 0) as [u|]; [|discriminate]. cbn [obind] in P. change (text "%f") with [37; 102] in P. cbn [body] in P.
  change (37 =? 37) with true in P. cbv iota in P. change (directive 102) with (Some (fun a => match a with AReal m => via_buffer (real_text m) | _ => None end)) in P. cbv iota beta in P.
  rewrite V in P. discriminate.
Qed.
Print Assumptions log_real_refuted.

(** ** Many threads and processes *)

(** However the calls of the threads of several processes are interleaved, and however
    configurations are loaded in between: a log file has the bytes of the calls one after
    the other, each whole, in the order in which their turns came; and the turns of the
    calls of a thread come in the order it made them.  At any time a file has a first part
    of these bytes; when no call is in progress, it has them all, all calls have had their
    turns, and no lock is held. *)
Theorem log_order : forall st0 es st out, quiet st0 -> whole st0 -> Forall calm es -> run st0 es = Done st out ->
  (forall f, (f < List.length (s_files st0))%nat -> exists rest, file_text st f ++ rest = file_text st0 f ++ concat (map (said st0 f) out)) /\
  (forall t, exists rest, flat_map (entered t) out ++ rest = flat_map (made t) es) /\
  ((forall t, frames st t = []) -> quiet st /\
     (forall f, (f < List.length (s_files st0))%nat -> file_text st f = file_text st0 f ++ concat (map (said st0 f) out)) /\
     (forall t, flat_map (entered t) out = flat_map (made t) es)).
Proof. exact order_ok. Qed.
Print Assumptions log_order.

(** A call goes to the file and by the level of the last configuration of its process
    that was loaded before; and a thread sets the levels it is to set, in order. *)
Theorem log_settings : forall st0 es st out, quiet st0 -> whole st0 -> Forall calm es -> run st0 es = Done st out ->
  (forall o1 t c f level now o2, out = o1 ++ Entered t c f level now :: o2 -> exists th x0, nth_error (s_threads st0) t = Some th /\
     nth_error (s_procs st0) (t_proc th) = Some x0 /\ settings st0 (t_proc th) (p_fd x0, p_level x0) o1 = (f, level)) /\
  (forall t, exists rest, flat_map (configured t) out ++ rest = flat_map (asked t) out) /\
  (forall t, frames st t = [] -> flat_map (configured t) out = flat_map (asked t) out).
Proof. exact settings_ok. Qed.
Print Assumptions log_settings.

(** Nothing undefined is done. *)
Theorem log_no_fault : forall st es, quiet st -> whole st -> pids st -> Forall (proper_event st) es -> Forall calm es -> run st es <> Fault.
Proof. exact no_fault_ok. Qed.
Print Assumptions log_no_fault.

(** If no configuration with a wrong level is loaded, all calls end: from any time on
    there is a bound on how often threads go on before new calls are made, and as long as
    a call is in progress, some thread can go on.  (What is missing: configurations with a
    wrong level.) *)
Theorem log_ends_partial : forall st0 es st out, quiet st0 -> whole st0 -> pids st0 -> Forall (proper_event st0) es -> Forall calm es -> Forall levels_known es ->
  run st0 es = Done st out -> exists n,
  (forall es2 st2 out2, Forall goes es2 -> run st es2 = Done st2 out2 -> (List.length es2 <= n)%nat) /\
  (forall es2 st2 out2, Forall goes es2 -> Forall (proper_event st0) es2 -> run st es2 = Done st2 out2 ->
     quiet st2 \/ exists t st3 out3, step st2 (Go t 0 None) = Done st3 out3).
Proof. exact ends_ok. Qed.
Print Assumptions log_ends_partial.

(** Two processes, the first of two threads, and one file. *)
Definition log_start : state := mkS [mkF [] None; mkF [] None] [mkP 7 0 0 None; mkP 8 0 0 None] [mkT 0 []; mkT 0 []; mkT 1 []].
Definition log_two : call := Log 0 [] [] 0 (text "%s!") [AText (text "ab")].
Definition go_on (t : nat) : event := Go t 0 None.
Definition log_history : list event :=
  [Call 0 log_two; Call 2 (Raw (text "xy")); Call 1 (Reload (Some 1%nat) (NewLevel 3)); go_on 2; go_on 0; go_on 0; go_on 0; go_on 0; go_on 0; go_on 0; go_on 2; go_on 0; go_on 2; go_on 2;
   go_on 1; go_on 1; go_on 2; go_on 1; go_on 1; go_on 1; Call 1 log_two; go_on 1; go_on 1; go_on 1; go_on 1; Call 0 (Log 3 [] [] 5 (text "w") []); go_on 0; go_on 0;
   go_on 0; go_on 0; go_on 0; go_on 0; go_on 0; go_on 0; go_on 0; go_on 0; go_on 0; go_on 0; go_on 0; go_on 0].
Lemma log_start_ok : quiet log_start /\ whole log_start /\ pids log_start.
Proof. split; [split; [|split]|split; [split|]]; intros x X; cbn in X; intuition (subst; cbn; try lia; reflexivity). Qed.
Example log_order_case : match run log_start log_history with
  | Done st _ => map t_frames (s_threads st) = [[]; []; []] /\ file_text st 0 = text "ab!xy" /\
      file_text st 1 = text "01/01/1970 00:00:00 UTC WARN: ::5: PID:7 w"
  | _ => False end.
Proof. vm_compute. auto. Qed.
Example log_order_met : Forall calm log_history /\ Forall levels_known log_history /\ Forall (proper_event log_start) log_history.
Proof.
  split; [|split]; unfold log_history; repeat (constructor; cbn; try exact I; try lia); cbn;
    repeat split; try lia; try (exists [Text (text "ab"); Lit (text "!")]; repeat constructor; vm_compute; intuition discriminate).
  exists [Lit (text "w")]; repeat constructor; vm_compute; intuition discriminate.
Qed.

(** Why [calm]: the result of [write] is not looked at, so that of a call that the system
    cannot write at once a part is lost. *)
Theorem log_short_refuted : ~ (forall st0 es st out, quiet st0 -> whole st0 -> run st0 es = Done st out ->
  (forall e, In e es -> match e with Interrupt _ _ => False | _ => True end) -> (forall t, frames st t = []) ->
  forall f, (f < List.length (s_files st0))%nat -> file_text st f = file_text st0 f ++ concat (map (said st0 f) out)).
Proof.
  intros H. destruct log_start_ok as (Q & W & _).
  pose (es := [Call 0 (Raw (text "line")); go_on 0; go_on 0; Go 0 0 (Some 2%nat); go_on 0; go_on 0]).
  destruct (run log_start es) as [st out| |] eqn:R; [|vm_compute in R; discriminate|vm_compute in R; discriminate].
  specialize (H log_start es st out Q W R). vm_compute in R. injection R as <- <-.
  assert (E : forall t, frames (mkS [mkF [108; 105] None; mkF [] None] [mkP 7 0 0 None; mkP 8 0 0 None] [mkT 0 []; mkT 0 []; mkT 1 []]) t = []).
  { intros [|[|[|[|t]]]]; reflexivity. }
  specialize (H ltac:(intros e X; repeat (destruct X as [<-|X]; [exact I|]); destruct X) E 0%nat ltac:(cbn; lia)). vm_compute in H. discriminate.
Qed.
Print Assumptions log_short_refuted.

(** And a signal that ends the wait for the lock of the file lets the call write all the
    same, in the middle of what another process writes. *)
Theorem log_signal_refuted : ~ (forall st0 es st out, quiet st0 -> whole st0 -> run st0 es = Done st out ->
  (forall e, In e es -> match e with Go _ _ (Some _) => False | _ => True end) -> (forall t, frames st t = []) ->
  forall f, (f < List.length (s_files st0))%nat -> file_text st f = file_text st0 f ++ concat (map (said st0 f) out)).
Proof.
  intros H. destruct log_start_ok as (Q & W & _).
  pose (es := [Call 0 log_two; Call 2 (Raw (text "xy")); go_on 0; go_on 0; go_on 0; go_on 0; go_on 2; Interrupt 2 0; go_on 2; go_on 2; go_on 2; go_on 0; go_on 0; go_on 0]).
  destruct (run log_start es) as [st out| |] eqn:R; [|vm_compute in R; discriminate|vm_compute in R; discriminate].
  specialize (H log_start es st out Q W R). vm_compute in R. injection R as <- <-.
  match type of H with _ -> (forall t, frames ?s t = []) -> _ => assert (E : forall t, frames s t = []) by (intros [|[|[|[|t]]]]; reflexivity) end.
  specialize (H ltac:(intros e X; repeat (destruct X as [<-|X]; [exact I|]); destruct X) E 0%nat ltac:(cbn; lia)). vm_compute in H. discriminate.
Qed.
Print Assumptions log_signal_refuted.

(** Loading a configuration with a wrong level never ends: the complaint about it waits for
    the lock that the same thread has.  And as the file stays locked too, nothing is
    written to it any more, by no thread of no process. *)
Theorem log_reload_refuted : exists es st out, quiet log_start /\ whole log_start /\ Forall calm es /\ run log_start es = Done st out /\
  flat_map (made 0) es = [Reload None BadLevel] /\
  forall es2 st2 out2, Forall calm es2 -> run st es2 = Done st2 out2 -> frames st2 0 <> [] /\ file_text st2 0 = file_text st 0 /\
    forall now, step st2 (Go 0 now None) = Disabled.
Proof.
  destruct log_start_ok as (Q & W & _). pose (es := [Call 0 (Reload None BadLevel); go_on 0; go_on 0; go_on 0]).
  destruct (run log_start es) as [st out| |] eqn:R; [|vm_compute in R; discriminate|vm_compute in R; discriminate].
  assert (C : Forall calm es) by (repeat constructor).
  exists es, st, out. split; [exact Q|]. split; [exact W|]. split; [exact C|]. split; [exact R|]. split; [reflexivity|].
  intros es2 st2 out2 C2 R2. destruct (run_inv es log_start log_start [] [] st out (inv_init _ Q W) (inv2_init _ Q) C R) as [I J]. cbn [app] in I, J.
  assert (S : stuck st).
  { cbv in R. injection R as <- <-. eexists. eexists. cbn [s_threads s_procs nth_error]. repeat split. }
  destruct (stuck_run es2 _ _ _ _ _ _ I S C2 R2) as [(th & x & T & FR & TP & P & PF) E].
  destruct (run_inv es2 log_start st es out st2 out2 I J C2 R2) as [I2 _].
  assert (O : p_owner x = Some 0%nat) by (apply (i_spin _ _ _ _ I2 0%nat th x T); [rewrite FR; reflexivity|rewrite TP; exact P]).
  split; [unfold frames; rewrite T, FR; discriminate|]. split; [exact E|].
  intros now. cbn [step]. rewrite T. unfold go. rewrite TP, P, FR, O. reflexivity.
Qed.
Print Assumptions log_reload_refuted.

(** ** The path *)

(** The path of the log file is that of the configuration, below the directory of the
    library if it begins neither with a slash nor with a dot; the directory that is made
    for it is what stands before the last slash. *)
Theorem log_file_path : forall root deflt cmd dir name,
  match cmd with None => deflt | Some s => if (hd 0 s =? 47) || (hd 0 s =? 46) then s else root ++ 47 :: s end = dir ++ 47 :: name ->
  ~ In 47 name -> (List.length dir < 512)%nat -> (List.length (dir ++ 47%N :: name) <= 1022)%nat ->
  get_log root deflt cmd = Some (dir, dir ++ 47 :: name, dir ++ 47 :: name).
Proof. exact get_log_ok. Qed.
Print Assumptions log_file_path.
Example log_file_path_case : get_log (text "/usr/local/melon") (text "/usr/local/melon/logs/melon.log") (Some (text "logs/my.log")) =
  Some (text "/usr/local/melon/logs", text "/usr/local/melon/logs/my.log", text "/usr/local/melon/logs/my.log").
Proof. reflexivity. Qed.

(** Not all paths are handled: a path without a slash (it begins with a dot), and a
    long name of a directory. *)
Theorem log_file_path_refuted :
  ~ (forall root deflt s, hd 0 s = 46 -> (List.length s <= 1022)%nat -> exists dir path, get_log root deflt (Some s) = Some (dir, path, s)) /\
  ~ (forall root deflt s, hd 0 s = 47 -> (List.length s <= 1022)%nat -> exists dir path, get_log root deflt (Some s) = Some (dir, path, s)).
Proof.
  split; intros H.
  - destruct (H [] [] (text ".log") eq_refl ltac:(cbn; lia)) as (dir & path & E). vm_compute in E. discriminate.
  - destruct (H [] [] (47 :: repeat 97 600 ++ [47; 108]) eq_refl ltac:(cbn [List.length]; rewrite app_length, repeat_length; cbn [List.length]; lia)) as (dir & path & E). vm_compute in E. discriminate.
Qed.
Print Assumptions log_file_path_refuted.
