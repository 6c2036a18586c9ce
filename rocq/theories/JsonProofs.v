Require Import List Arith NArith ZArith Lia Bool SpecFloat.
Require Import ZifyBool ZifyNat ZifyN.
Require Import Verif.Base Verif.JsonNumModel Verif.JsonNumProofs Verif.JsonModel Verif.JsonSpec Verif.JsonTextProofs.
Import ListNotations.
Open Scope N_scope.

(** ** Blanks *)
Lemma blank_iff c : is_blank c = true <-> In c [32; 9; 10; 13].
Proof. unfold is_blank. cbn [In]. lia. Qed.
Lemma skip_ws w s : ws w -> skip (w ++ s) = skip s.
Proof.
  induction 1 as [|c w Hc Hw IH]; [reflexivity|]. cbn [app skip]. rewrite (proj2 (blank_iff c) Hc). exact IH.
Qed.
Lemma skip_stop c s : is_blank c = false -> skip (c :: s) = c :: s.
Proof. intros H. cbn [skip]. rewrite H. reflexivity. Qed.
Lemma skip_skip s : skip (skip s) = skip s.
Proof.
  induction s as [|c t IH]; [reflexivity|]. cbn [skip]. destruct (is_blank c) eqn:E; [exact IH|]. apply skip_stop. exact E.
Qed.
Lemma ws_ends_at w c s : ws w -> ends c -> ends_at (w ++ c :: s).
Proof. intros Hw Hc. destruct Hw as [|x w Hx Hw]; [exact Hc|]. cbn [app ends_at]. unfold ends. cbn [In] in *. tauto. Qed.

(** How a value begins. *)
Definition starts (c : N) : Prop := is_blank c = false /\ c <> 93 /\ c <> 125.
Lemma value_head v t : value v t -> exists c u, t = c :: u /\ starts c.
Proof.
  assert (P : forall c : N, is_blank c = false -> c <> 93 -> c <> 125 -> starts c) by (unfold starts; auto).
  intros H. destruct H as [| | |s t (u & raw & Hc & ->)|z t Hz [(H0 & Ht)|(H0 & t' & -> & Ht)]|w Hw|m t Hm Hn|l t Hl];
    try (eexists _, _; split; [reflexivity|apply P; [reflexivity|discriminate|discriminate]]).
  destruct (nat_text_head _ _ Ht) as (c & u & -> & Hc). exists c, u. split; [reflexivity|]. unfold starts, is_blank. lia.
Qed.

Scheme value_mind := Minimality for value Sort Prop
  with members_mind := Minimality for members Sort Prop
  with elements_mind := Minimality for elements Sort Prop.
Combined Scheme value_mutind from value_mind, members_mind, elements_mind.

(** One turn of each of the three functions. *)
Lemma parse_json_S look p term f depth obj_key s : parse_json look p term (S f) depth obj_key s = 
      match skip s with
      | [] => Ok (JNone, [])
      | c :: t =>
          if c =? 123 then
            (* lines 391-402 *)
            match t with
            | [] => Bad 0
            | _ => if exceeds (p_depth p) (depth + 1) then Bad 1 else parse_obj look p term f depth [] t
            end
          else if c =? 91 then
            (* lines 501-513 *)
            match t with
            | [] => Bad 0
            | _ => if exceeds (p_depth p) (depth + 1) then Bad 1 else parse_arr look p term f depth [] t
            end
          else if c =? 34 then
            match t with
            | [] => Bad 0
            | _ => r <~ parse_string p obj_key t ;; Ok (JStr (fst r), snd r)
            end
          else if is_digit c || (c =? 45) then
            r <~ parse_digit (c :: t) ;; Ok (JNum (fst r), snd r)
          else parse_word (c :: t)
      end.
Proof. reflexivity. Qed.
Lemma parse_obj_S look p term f depth m s : parse_obj look p term (S f) depth m s = 
      match skip s with
      | [] => if term then Bad 0 else Overread
      | c :: t =>
          if c =? 125 then Ok (JObj m, skip t)
          else
            r <~ parse_json look p term f (depth + 1) true (c :: t) ;;
            match r with
            | (JStr k, (_ :: _) as s1) =>
                match skip s1 with
                | c1 :: ((_ :: _) as t1) =>
                    if c1 =? 58 then
                      r2 <~ parse_json look p term f (depth + 1) false t1 ;;
                      let '(v, s2) := r2 in
                      match skip s2 with
                      | [] => Bad 0
                      | c2 :: t2 =>
                          let m := obj_update look m k v in
                          if exceeds (p_obj p) (N.of_nat (length m)) then Bad 5
                          else if c2 =? 44 then match t2 with [] => Bad 0 | _ => parse_obj look p term f depth m t2 end
                          else if c2 =? 125 then Ok (JObj m, skip t2)
                          else Bad 0
                      end
                    else Bad 0
                | _ => Bad 0
                end
            | _ => Bad 0
            end
      end.
Proof. reflexivity. Qed.
Lemma parse_arr_S look p term f depth l s : parse_arr look p term (S f) depth l s = 
      match s with
      | [] => Overread
      | c :: _ =>
          r <~ (if c =? 93 then Ok (JNone, s) else parse_json look p term f (depth + 1) false s) ;;
          let '(v, s1) := r in
          match s1 with
          | [] => Bad 0
          | _ =>
              let l := l ++ [v] in
              if exceeds (p_arr p) (N.of_nat (length l)) then Bad 4
              else match skip s1 with
                   | [] => Bad 0
                   | c1 :: t1 =>
                       if c1 =? 44 then match t1 with [] => Bad 0 | _ => parse_arr look p term f depth l t1 end
                       else if c1 =? 93 then Ok (JArr l, skip t1)
                       else Bad 0
                   end
          end
      end.
Proof. reflexivity. Qed.

Section Reader.
Variable look : list (list N) -> list N -> option nat.
Hypothesis Hlook : sound_look look.
Variable term : bool.
Notation parse_json := (parse_json look no_policy term).
Notation parse_obj := (parse_obj look no_policy term).
Notation parse_arr := (parse_arr look no_policy term).

Lemma no_limit n : exceeds 0 n = false.
Proof. reflexivity. Qed.
Lemma update_fresh m k v : ~ In k (map fst m) -> obj_update look m k v = m ++ [(k, v)].
Proof.
  intros H. unfold obj_update. destruct (look (map fst m) k) as [i|] eqn:E; [|reflexivity]. destruct H. eapply nth_error_In. exact (Hlook _ _ _ E).
Qed.

Definition Pv (v : json) (t : list N) : Prop := forall f d k w r, ws w -> ends_at r -> (2 * length (w ++ t ++ r) + 1 <= f)%nat ->
  exists r', parse_json f d k (w ++ t ++ r) = Ok (v, r') /\ skip r' = skip r /\ (is_container v -> r' = skip r).
Definition Pm (m : list (list N * json)) (t : list N) : Prop := forall f d acc r, (2 * length (t ++ r) + 2 <= f)%nat ->
  NoDup (map fst (acc ++ m)) -> parse_obj f d acc (t ++ r) = Ok (JObj (acc ++ m), skip r).
Definition Pe (l : list json) (t : list N) : Prop := forall f d acc r, (2 * length (t ++ r) + 2 <= f)%nat ->
  parse_arr f d acc (t ++ r) = Ok (JArr (acc ++ l), skip r).

(** One turn of each of the three functions. *)
Lemma json_step f d k w c t : ws w -> is_blank c = false -> parse_json (S f) d k (w ++ c :: t) =
  if c =? 123 then match t with [] => Bad 0 | _ => parse_obj f d [] t end
  else if c =? 91 then match t with [] => Bad 0 | _ => parse_arr f d [] t end
  else if c =? 34 then match t with [] => Bad 0 | _ => r <~ parse_string no_policy k t ;; Ok (JStr (fst r), snd r) end
  else if is_digit c || (c =? 45) then r <~ parse_digit (c :: t) ;; Ok (JNum (fst r), snd r)
  else parse_word (c :: t).
Proof. intros Hw Hc. rewrite parse_json_S. rewrite (skip_ws w _ Hw), (skip_stop c t Hc). reflexivity. Qed.

Lemma string_value s t : string_text s t -> Pv (JStr s) t.
Proof.
  intros H f d k w r Hw Hr Hf. destruct (parse_string_ok s t k r H) as (t' & -> & Hne & E). destruct f as [|f]; [lia|].
  cbn [app]. rewrite json_step by (assumption || reflexivity). cbn [N.eqb Pos.eqb]. exists r. split; [|split; [reflexivity|intros []]].
  rewrite E. destruct t' as [|x y]; [congruence|]. reflexivity.
Qed.

(** A member up to the byte behind its value. *)
Lemma member_step f d acc k v w1 tk w2 w3 tv w4 c r : ws w1 -> string_text k tk -> ws w2 -> ws w3 -> Pv v tv -> (exists c u, tv = c :: u) -> ws w4 ->
  ends c -> is_blank c = false -> ~ In k (map fst acc) ->
  (2 * length (w1 ++ tk ++ w2 ++ 58%N :: w3 ++ tv ++ w4 ++ c :: r) + 1 <= f)%nat ->
  parse_obj (S f) d acc (w1 ++ tk ++ w2 ++ 58%N :: w3 ++ tv ++ w4 ++ c :: r) =
  if c =? 44 then match r with [] => Bad 0 | _ => parse_obj f d (acc ++ [(k, v)]) r end
  else if c =? 125 then Ok (JObj (acc ++ [(k, v)]), skip r)
  else Bad 0.
Proof.
  intros H1 Hk H2 H3 IHv Hv H4 Hc Hb Hfr Hf. rewrite parse_obj_S. rewrite (skip_ws w1 _ H1).
  pose proof (string_value k tk Hk f (d + 1) true [] (w2 ++ 58 :: w3 ++ tv ++ w4 ++ c :: r)) as Sk.
  destruct Hk as (u & raw & Hch & Etk). rewrite Etk. cbn [app]. rewrite skip_stop by reflexivity. cbn [N.eqb Pos.eqb].
  destruct Sk as (r1 & E1 & S1 & _).
  { constructor. } { apply ws_ends_at; [exact H2|]. unfold ends. cbn [In]. tauto. } { cbn [app]. rewrite app_length in Hf. lia. }
  rewrite Etk in E1. cbn [app] in E1. rewrite E1. cbn [rbind].
  rewrite (skip_ws w2 _ H2), (skip_stop 58) in S1 by reflexivity. destruct r1 as [|x1 r1]; [discriminate|]. cbn iota.
 rewrite S1.
  assert (Hne : w3 ++ tv ++ w4 ++ c :: r <> []). { destruct Hv as (c0 & u0 & ->). destruct w3; discriminate. }
  destruct (w3 ++ tv ++ w4 ++ c :: r) as [|x2 r2] eqn:E2; [congruence|]. rewrite <- E2 in *. cbn [N.eqb Pos.eqb].
  destruct (IHv f (d + 1) false w3 (w4 ++ c :: r) H3) as (r3 & E3 & S3 & _).
  { apply ws_ends_at; assumption. } { rewrite !app_length in Hf |- *. cbn [length] in Hf. rewrite !app_length in Hf. lia. }
  rewrite E3. cbn [rbind]. rewrite (skip_ws w4 _ H4), (skip_stop c r Hb) in S3. rewrite S3. cbn [no_policy p_obj]. rewrite no_limit.
  rewrite (update_fresh acc k v Hfr). reflexivity.
Qed.

(** An element up to the byte behind its value. *)
Lemma element_step f d acc v w1 tv w2 c r : ws w1 -> Pv v tv -> (exists c u, tv = c :: u /\ starts c) -> ws w2 -> ends c -> is_blank c = false ->
  (2 * length (w1 ++ tv ++ w2 ++ c :: r) + 1 <= f)%nat ->
  parse_arr (S f) d acc (w1 ++ tv ++ w2 ++ c :: r) =
  if c =? 44 then match r with [] => Bad 0 | _ => parse_arr f d (acc ++ [v]) r end
  else if c =? 93 then Ok (JArr (acc ++ [v]), skip r)
  else Bad 0.
Proof.
  intros H1 IHv Hv H2 Hc Hb Hf. rewrite parse_arr_S.
  assert (Hh : exists x y, w1 ++ tv ++ w2 ++ c :: r = x :: y /\ x <> 93).
  { destruct Hv as (x & y & -> & (_ & Hx & _)). destruct H1 as [|b w1 Hbl H1]; [exists x, (y ++ w2 ++ c :: r); auto|].
    exists b, (w1 ++ (x :: y) ++ w2 ++ c :: r). split; [reflexivity|]. cbn [In] in Hbl. lia. }
  destruct Hh as (x & y & E & Hx). rewrite E. replace (x =? 93) with false by lia. rewrite <- E.
  destruct (IHv f (d + 1) false w1 (w2 ++ c :: r) H1) as (r1 & E1 & S1 & _).
  { apply ws_ends_at; assumption. } { lia. }
  rewrite E1. cbn [rbind]. rewrite (skip_ws w2 _ H2), (skip_stop c r Hb) in S1. destruct r1 as [|z r1]; [discriminate|]. rewrite S1.
  cbn [no_policy p_arr]. rewrite no_limit. reflexivity.
Qed.

Lemma members_ne m t : members m t -> t <> [].
Proof. intros [k v w1 tk w2 w3 tv w4 _ (u & raw & _ & ->)|k v w1 tk w2 w3 tv w4 m' t' _ (u & raw & _ & ->)]; destruct w1; discriminate. Qed.
Lemma elements_ne l t : elements l t -> t <> [].
Proof. intros [v w1 tv w2 _ Hv|v w1 tv w2 l' t' _ Hv]; destruct (value_head _ _ Hv) as (c & u & -> & _); destruct w1; discriminate. Qed.

Lemma reader_complete : (forall v t, value v t -> Pv v t) /\ (forall m t, members m t -> Pm m t) /\ (forall l t, elements l t -> Pe l t).
Proof.
  apply value_mutind.
  - intros f d k w r Hw Hr Hf. destruct f as [|f]; [lia|]. cbn [app]. rewrite json_step by (assumption || reflexivity). exists r. split; [reflexivity|]. split; [reflexivity|intros []].
  - intros f d k w r Hw Hr Hf. destruct f as [|f]; [lia|]. cbn [app]. rewrite json_step by (assumption || reflexivity). exists r. split; [reflexivity|]. split; [reflexivity|intros []].
  - intros f d k w r Hw Hr Hf. destruct f as [|f]; [lia|]. cbn [app]. rewrite json_step by (assumption || reflexivity). exists r. split; [reflexivity|]. split; [reflexivity|intros []].
  - exact string_value.
  - intros z t Hz Ht f d k w r Hw Hr Hf. destruct f as [|f]; [lia|]. exists r. split; [|split; [reflexivity|intros []]].
    assert (Hh : exists c u, t = c :: u /\ is_digit c || (c =? 45) = true /\ is_blank c = false /\ c <> 123 /\ c <> 91 /\ c <> 34).
    { destruct Ht as [(H0 & Ht)|(H0 & t' & -> & Ht)]; [|exists 45, t'; repeat split; congruence].
      destruct (nat_text_head _ _ Ht) as (c & u & -> & Hc). exists c, u. split; [reflexivity|]. clear - Hc. unfold is_digit, is_blank. lia. }
    destruct Hh as (c & u & E & Hd & Hb & H1 & H2 & H3). pose proof (parse_digit_ok z t r Hz Ht Hr) as Ep. rewrite E in *. cbn [app] in *.
    rewrite json_step by assumption. replace (c =? 123) with false by lia. replace (c =? 91) with false by lia. replace (c =? 34) with false by lia.
    rewrite Hd, Ep. reflexivity.
  - intros w' Hw' f d k w r Hw Hr Hf. destruct f as [|f]; [lia|]. cbn [app]. rewrite json_step by (assumption || reflexivity). cbn [N.eqb Pos.eqb].
    exists (skip r). split; [|split; [apply skip_skip|auto]]. rewrite <- app_assoc. cbn [app].
    assert (Hne : w' ++ 125 :: r <> []) by (destruct w'; discriminate).
    destruct (w' ++ 125 :: r) as [|x y] eqn:E; [congruence|]. rewrite <- E. rewrite app_length in Hf. cbn [app length] in Hf. destruct f as [|f]; [lia|].
    rewrite parse_obj_S. rewrite (skip_ws w' _ Hw'), (skip_stop 125) by reflexivity. reflexivity.
  - intros m t Hm IH Hn f d k w r Hw Hr Hf. destruct f as [|f]; [lia|]. cbn [app]. rewrite json_step by (assumption || reflexivity). cbn [N.eqb Pos.eqb].
    exists (skip r). split; [|split; [apply skip_skip|auto]]. rewrite app_length in Hf. cbn [app length] in Hf. pose proof (members_ne m t Hm) as Hne.
    destruct (t ++ r) as [|x y] eqn:E; [destruct t; [congruence|discriminate]|]. rewrite <- E. apply IH; [rewrite E; cbn [length] in *; lia|exact Hn].
  - intros l t Hl IH f d k w r Hw Hr Hf. destruct f as [|f]; [lia|]. cbn [app]. rewrite json_step by (assumption || reflexivity). cbn [N.eqb Pos.eqb].
    exists (skip r). split; [|split; [apply skip_skip|auto]]. rewrite app_length in Hf. cbn [app length] in Hf. pose proof (elements_ne l t Hl) as Hne.
    destruct (t ++ r) as [|x y] eqn:E; [destruct t; [congruence|discriminate]|]. rewrite <- E. apply IH. rewrite E; cbn [length] in *; lia.
  - intros k v w1 tk w2 w3 tv w4 H1 Hk H2 H3 Hv IHv H4 f d acc r Hf Hn. destruct f as [|f]; [lia|].
    repeat (rewrite <- app_assoc; cbn [app]). rewrite (member_step f d acc k v); try assumption; [reflexivity|..].
    + destruct (value_head _ _ Hv) as (c & u & E & _). eauto.
    + unfold ends. cbn [In]. tauto.
    + reflexivity.
    + rewrite map_app in Hn. cbn [map fst] in Hn. apply NoDup_remove_2 in Hn. rewrite app_nil_r in Hn. exact Hn.
    + revert Hf. repeat (rewrite <- app_assoc; cbn [app]). lia.
  - intros k v w1 tk w2 w3 tv w4 m t H1 Hk H2 H3 Hv IHv H4 Hm IHm f d acc r Hf Hn. destruct f as [|f]; [lia|].
    repeat (rewrite <- app_assoc; cbn [app]). rewrite (member_step f d acc k v); try assumption.
    + cbn [N.eqb Pos.eqb]. pose proof (members_ne m t Hm) as Hne.
      destruct (t ++ r) as [|x y] eqn:E; [destruct t; [congruence|discriminate]|]. rewrite <- E. rewrite IHm.
      * rewrite <- app_assoc. reflexivity.
      * revert Hf. repeat rewrite ?app_length, ?length_cons; cbn [length]; repeat rewrite ?app_length; cbn [length]; repeat rewrite ?app_length; cbn [length]; lia.
      * rewrite <- app_assoc. exact Hn.
    + destruct (value_head _ _ Hv) as (c & u & E & _). eauto.
    + unfold ends. cbn [In]. tauto.
    + reflexivity.
    + rewrite map_app in Hn. cbn [map fst] in Hn. apply NoDup_remove_2 in Hn. intros C. apply Hn. apply in_or_app. left. exact C.
    + revert Hf. repeat (rewrite <- app_assoc; cbn [app]). lia.
  - intros v w1 tv w2 H1 Hv IHv H2 f d acc r Hf. destruct f as [|f]; [lia|].
    repeat (rewrite <- app_assoc; cbn [app]). rewrite (element_step f d acc v); try assumption; [reflexivity|..].
    + exact (value_head _ _ Hv).
    + unfold ends. cbn [In]. tauto.
    + reflexivity.
    + revert Hf. repeat (rewrite <- app_assoc; cbn [app]). lia.
  - intros v w1 tv w2 l t H1 Hv IHv H2 Hl IHl f d acc r Hf. destruct f as [|f]; [lia|].
    repeat (rewrite <- app_assoc; cbn [app]). rewrite (element_step f d acc v); try assumption.
    + cbn [N.eqb Pos.eqb]. pose proof (elements_ne l t Hl) as Hne.
      destruct (t ++ r) as [|x y] eqn:E; [destruct t; [congruence|discriminate]|]. rewrite <- E. rewrite IHl.
      * rewrite <- app_assoc. reflexivity.
      * revert Hf. repeat rewrite ?app_length; cbn [length]; repeat rewrite ?app_length; cbn [length]; lia.
    + exact (value_head _ _ Hv).
    + unfold ends. cbn [In]. tauto.
    + reflexivity.
    + revert Hf. repeat (rewrite <- app_assoc; cbn [app]). lia.
Qed.

Lemma decode_complete v s : document v s -> decode look no_policy term s = Ok v.
Proof.
  intros (Hc & w1 & t & w2 & -> & H1 & Hv & H2). unfold decode.
  destruct (proj1 reader_complete v t Hv (2 * length (w1 ++ t ++ w2) + 2)%nat 0 false w1 w2 H1) as (r & E & _ & Sr); [|lia|].
  { destruct H2 as [|c w Hb Hw]; [exact I|]. cbn [ends_at]. unfold ends. cbn [In] in *. tauto. }
  rewrite E. cbn [rbind]. specialize (Sr Hc). rewrite <- (app_nil_r w2) in Sr. rewrite (skip_ws w2 [] H2) in Sr. cbn [skip] in Sr. subst r.
  destruct v as [|m|l|s|d| | |]; try (destruct Hc; fail); reflexivity.
Qed.
Lemma container_read v t f d k w r : value v t -> is_container v -> ws w -> (2 * length (w ++ t ++ r) + 1 <= f)%nat -> parse_json f d k (w ++ t ++ r) = Ok (v, skip r).
Proof.
  intros Hv Hc Hw Hf. destruct f as [|f]; [lia|]. destruct Hv as [| | |s t Hs|z t Hz Ht|w' Hw'|m t Hm Hn|l t Hl]; try (destruct Hc; fail).
  - cbn [app]. rewrite json_step by (assumption || reflexivity). cbn [N.eqb Pos.eqb]. rewrite <- app_assoc. cbn [app].
    assert (Hne : w' ++ 125 :: r <> []) by (destruct w'; discriminate).
    destruct (w' ++ 125 :: r) as [|x y] eqn:E; [congruence|]. rewrite <- E. rewrite app_length in Hf. cbn [app length] in Hf. destruct f as [|f]; [lia|].
    rewrite parse_obj_S. rewrite (skip_ws w' _ Hw'), (skip_stop 125) by reflexivity. reflexivity.
  - cbn [app]. rewrite json_step by (assumption || reflexivity). cbn [N.eqb Pos.eqb]. rewrite app_length in Hf. cbn [app length] in Hf. pose proof (members_ne m t Hm) as Hne.
    destruct (t ++ r) as [|x y] eqn:E; [destruct t; [congruence|discriminate]|]. rewrite <- E. apply (proj1 (proj2 reader_complete) m t Hm); [rewrite E; cbn [length] in *; lia|exact Hn].
  - cbn [app]. rewrite json_step by (assumption || reflexivity). cbn [N.eqb Pos.eqb]. rewrite app_length in Hf. cbn [app length] in Hf. pose proof (elements_ne l t Hl) as Hne.
    destruct (t ++ r) as [|x y] eqn:E; [destruct t; [congruence|discriminate]|]. rewrite <- E. apply (proj2 (proj2 reader_complete) l t Hl). rewrite E; cbn [length] in *; lia.
Qed.
Lemma decode_trailing v s c r : document v s -> is_blank c = false -> decode look no_policy term (s ++ c :: r) = Bad 0.
Proof.
  intros (Hc & w1 & t & w2 & -> & H1 & Hv & H2) Hb. unfold decode. rewrite <- !app_assoc. rewrite (container_read v t) by (try assumption; lia). cbn [rbind].
  rewrite (skip_ws w2 _ H2), (skip_stop c r Hb). destruct v; try (destruct Hc; fail); reflexivity.
Qed.
End Reader.
