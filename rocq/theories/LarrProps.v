(** C71: the arrays of the script language. *)
Require Import List Arith NArith ZArith Bool Lia.
Require Import Verif.Base Verif.RbModel Verif.StrModel Verif.LarrModel Verif.LarrSpec Verif.LarrProofs.
Import ListNotations.
Open Scope N_scope.

(** An array is what LarrSpec.v says: for every history of calls the answers are those of a list of places, found by number and by key; a call
    without memory may be refused and then changes nothing. The histories have at most 2^62 calls and numbers below 2^62, the keys are not NaN
    and not strings with bytes from 128 on, and there is memory for the second node of an element with a key. *)
Theorem larr_is_map_partial :
  forall (K : Type) (what : K -> val) t0 k0 (os : list (op K)), sound_keys what -> Forall (allowed what) os -> N.of_nat (length os) <= 2 ^ 62 ->
    exists a rs l, run what (new t0 k0) os = Ok (a, rs) /\ means what [] os rs l.
Proof.
  intros K what t0 k0 os Hk Hf Hl. destruct (history_ok K what Hk t0 k0 os Hf Hl) as (a & rs & l & E & M & _). exists a, rs, l. auto.
Qed.
Print Assumptions larr_is_map_partial.

(** All that a look at the elements shows has its own number, and its own key if it has one. *)
Theorem larr_unique_partial :
  forall (K : Type) (what : K -> val) t0 k0 (os : list (op K)) a rs l, sound_keys what -> Forall (allowed what) os -> N.of_nat (length os) < 2 ^ 62 ->
    run what (new t0 k0) (os ++ [All]) = Ok (a, rs ++ [Elems l]) ->
    NoDup (map number l) /\
    forall i j p q k k', nth_error l i = Some p -> nth_error l j = Some q -> key_of p = Some k -> key_of q = Some k' ->
      same_key (what k) (what k') = true -> i = j.
Proof.
  intros K what t0 k0 os a rs l Hk Hf Hl E. destruct (history_ok K what Hk t0 k0 os Hf ltac:(lia)) as (a0 & rs0 & l0 & E0 & _ & HR & _).
  rewrite run_app, E0 in E. cbn [rbind fst snd] in E. destruct (all_ok K what a0 l0 HR) as (a1 & E1 & _). cbn [run] in E. rewrite E1 in E. cbn [rbind fst snd] in E.
  injection E as _ E. apply app_inj_tail in E as [_ E]. injection E as ->. apply (unique_ok K what t0 k0 os a0 rs0 l Hf); [lia|exact E0|exact HR].
Qed.
Print Assumptions larr_unique_partial.

(** What is put under a key stays there: after any other calls the key leads to the same element, and that has the value. *)
Theorem larr_keeps_partial :
  forall (K : Type) (what : K -> val) t0 k0 (os : list (op K)) k f os2 a rs e v, sound_keys what -> Forall (allowed what) (os ++ Get (Some k) f :: os2) ->
    N.of_nat (length os + length os2) + 4 <= 2 ^ 62 -> what k <> Nil ->
    run what (new t0 k0) (os ++ [Get (Some k) f]) = Ok (a, rs ++ [Elem (Some e)]) -> (forall w, ~ In (Put e w) os2) ->
    exists a' rs' l, run what a (Put e v :: os2 ++ [Get (Some k) None; All]) = Ok (a', rs' ++ [Elem (Some e); Elems l]) /\
      option_map snd (nth_error l (N.to_nat (e - 1))) = Some v.
Proof. intros K what t0 k0 os k f os2 a rs e v Hk. exact (keeps_ok K what Hk t0 k0 os k f os2 a rs e v). Qed.
Print Assumptions larr_keeps_partial.

(** The operator leaves its operand as it is, if it finds or makes an element and the operand is not -1. *)
Theorem larr_operand_partial :
  forall (K : Type) (what : K -> val) t0 k0 (os : list (op K)) a rs k f a' e v, sound_keys what -> Forall (allowed what) (os ++ [Index k f]) ->
    N.of_nat (length os) + 1 <= 2 ^ 62 -> run what (new t0 k0) os = Ok (a, rs) -> index_op what a k f = Ok (a', Some e, v) -> what k <> Int (-1) -> v = what k.
Proof. intros K what t0 k0 os a rs k f a' e v Hk. exact (operand_ok K what Hk t0 k0 os a rs k f a' e v). Qed.
Print Assumptions larr_operand_partial.

(** ** A history *)
Definition junk {K} (k : K) : rbtree K := mkT (mkM (fun _ => 7) (fun _ => 7) (fun _ => 7) (fun _ => true) 7) (fun _ => k) 7 (fun _ => None) None None None 7 true.
(** Keys of the example: numbers stand for [nil], the integers 5, -1 and -9, true, 1.5 (at any place), a string twice, -2, an object. *)
Definition abcd : list N := [97; 98; 99; 100].
Definition ex_what (k : nat) : val :=
  match k with
  | 0 => Nil | 1 => Int 5%Z | 2 => Int (-1)%Z | 3 => Int (-9)%Z | 4 => Boolean true | 5 => Real (Some 3%Z)
  | 6 => Str (mkS 100%N abcd) | 7 => Str (mkS 200%N abcd) | 8 => Int (-2)%Z | _ => Obj 4096%N
  end%nat.
Definition ex_ops : list (op nat) :=
  [Get None None; Get (Some 6%nat) None; Put 2 (Int 42); Get (Some 1%nat) None; Index 0%nat None; Get (Some 7%nat) None; Index 2%nat None;
   Index 3%nat None; Exist 4%nat None; Get (Some 4%nat) (Some ForNode); Get (Some 4%nat) None; Exist 4%nat None; Get (Some 5%nat) None; Get (Some 9%nat) (Some ForElem); All].
Lemma ex_sound : sound_keys ex_what.
Proof.
  split.
  - intros [|[|[|[|[|[|[|[|[|k]]]]]]]]]; cbn [ex_what fine s_bytes]; try exact I; repeat constructor.
  - intros [|[|[|[|[|[|[|[|[|a]]]]]]]]] [|[|[|[|[|[|[|[|[|b]]]]]]]]] s t; cbn [ex_what]; intros E1 E2; try discriminate E1; try discriminate E2;
      injection E1 as <-; injection E2 as <-; cbn; intros E; try reflexivity; discriminate E.
Qed.
Example larr_ex_history :
  sound_keys ex_what /\ Forall (allowed ex_what) ex_ops /\
  match run ex_what (new (junk 0) (junk 0%nat)) ex_ops with
  | Ok (_, rs) => rs =
      [Elem (Some 1); Elem (Some 2); Done; Elem (Some 3); Elem (Some 4); Elem (Some 2); Elem (Some 4); Elem None; Is false; Elem None; Elem (Some 5); Is true;
       Elem (Some 6); Elem None;
       Elems [(0, None, Nil); (1, Some 6%nat, Int 42); (5, None, Nil); (6, None, Nil); (7, Some 4%nat, Nil); (8, Some 5%nat, Nil)]]
  | Fault _ => False
  end.
Proof.
  split; [exact ex_sound|]. split; [|vm_compute; reflexivity].
  repeat constructor; cbn [allowed ex_what]; unfold small; try discriminate; try lia.
Qed.
(** The cases of the other theorems: the element of the string is made and then others; the operand -2. *)
Example larr_ex_keeps :
  Forall (allowed ex_what) ([Get None None] ++ Get (Some 6%nat) None :: [Get (Some 4%nat) None; Put 1 (Int 7); Index 2%nat None]) /\
  (forall w, ~ In (Put 2 w) [Get (Some 4%nat) None; Put 1 (Int 7); Index 2%nat None]) /\
  match run ex_what (new (junk 0) (junk 0%nat)) ([Get None None] ++ [Get (Some 6%nat) None]) with
  | Ok (a, rs) => rs = [Elem (Some 1)] ++ [Elem (Some 2)] /\ match index_op ex_what a 8%nat None with Ok (_, e, v) => e = Some 1 /\ v = Int (-2) | Fault _ => False end
  | Fault _ => False
  end.
Proof.
  split; [repeat constructor; cbn [allowed ex_what]; unfold small; try discriminate; try lia|].
  split; [intros w [C|[C|[C|[]]]]; discriminate C|]. vm_compute. repeat split.
Qed.

(** ** What does not hold *)
Notation start := (new (junk 0) (junk Nil)).
(** NaN leads to the element of another real. *)
Theorem larr_nan_refuted :
  match run (fun v => v) start [Get (Some (Real (Some 3%Z))) None; Get (Some (Real None)) None] with Ok (_, rs) => rs = [Elem (Some 1); Elem (Some 1)] | Fault _ => False end.
Proof. vm_compute. reflexivity. Qed.
Print Assumptions larr_nan_refuted.
(** A string with bytes from 128 on is not found again: it gets a second element. *)
Theorem larr_string_refuted :
  let at_ n s := Get (Some (Str (mkS n s))) None in
  match run (fun v => v) start
    [at_ 1 [97; 97; 97; 32]; at_ 2 [97; 97; 195; 191]; at_ 3 [97; 97; 97; 65]; at_ 4 [97; 97; 97; 66]; at_ 5 [97; 97; 97; 67]; at_ 6 [97; 97; 97; 68];
     at_ 7 [97; 97; 97; 69]; at_ 8 [97; 97; 97; 70]; at_ 9 [97; 97; 195; 191]] with
  | Ok (_, rs) => nth 1 rs Done = Elem (Some 2) /\ nth 8 rs Done = Elem (Some 9)
  | Fault _ => False
  end.
Proof. vm_compute. split; reflexivity. Qed.
Print Assumptions larr_string_refuted.
(** Without memory for the second node the element is freed, but it stays in the tree of keys, and the next look at a key uses it. In a tree with more elements, the next look at a key of the same side. *)
Theorem larr_memory_refuted :
  (forall k, k = Boolean true \/ k = Obj 1 ->
   match run (fun v => v) start [Get (Some (Boolean false)) (Some ForLink); Get (Some k) None] with Fault Freed => True | _ => False end) /\
  let after lost k :=
    match run (fun v => v) start [Get (Some (Real (Some 50%Z))) None; Get (Some (Real (Some lost))) (Some ForLink); Get (Some (Real (Some k))) None] with
    | Fault Freed => true | _ => false
    end in
  (after 10 5 = true /\ after 10 20 = true /\ after 10 90 = false /\ after 90 100 = true /\ after 90 80 = true /\ after 90 5 = false)%Z.
Proof. split; [intros k [->| ->]; vm_compute; exact I|vm_compute; repeat split]. Qed.
Print Assumptions larr_memory_refuted.
(** The largest integer as a number makes the sum overflow. *)
Theorem larr_overflow_refuted :
  match run (fun v => v) start [Index (Int (2 ^ 63 - 1)) None] with Fault Overflow => True | _ => False end.
Proof. vm_compute. exact I. Qed.
Print Assumptions larr_overflow_refuted.
(** With a negative number a C program makes the numbers start again, and there are two elements with number 0. *)
Theorem larr_negative_refuted :
  match run (fun v => v) start [Get None None; Get (Some (Int (-2))) None; Get None None; Get None None; All] with
  | Ok (_, rs) => match last rs Done with Elems l => map number l = [0; 2 ^ 64 - 2; 2 ^ 64 - 1; 0] | _ => False end
  | Fault _ => False
  end.
Proof. vm_compute. reflexivity. Qed.
Print Assumptions larr_negative_refuted.
(** The operand -1 is changed by the operator: after the last of three elements was looked up with it, it is 2. So is an operand with which nothing is found. *)
Theorem larr_operand_refuted :
  match run (fun v => v) start [Get None None; Get None None; Get None None] with
  | Ok (a, _) =>
      match index_op (fun v => v) a (Int (-1)) None, index_op (fun v => v) a (Int (-5)) None with
      | Ok (_, e, v), Ok (_, e', v') => e = Some 3 /\ v = Int 2 /\ e' = None /\ v' = Int (-2)
      | _, _ => False
      end
  | Fault _ => False
  end.
Proof. vm_compute. repeat split. Qed.
Print Assumptions larr_operand_refuted.
