(** What a log is for: the messages, as the caller of [mln_log] thinks of them. *)

From Coq Require Import String Ascii List Arith NArith ZArith Bool.
From Verif Require Import Base HttpModel CalModel CalSpec LogModel.
Import ListNotations.
Local Open Scope list_scope.
Local Open Scope N_scope.

(** ** A message *)

(** The parts of a message: characters of the format that stand for themselves, and
    values. *)
Inductive item : Type :=
| Lit (t : bytes)
| Text (t : bytes)               (* %s *)
| Str (t : bytes)                (* %S *)
| Char (c : N)                   (* %c *)
| Int (z : Z)                    (* %d *)
| Uint (n : N)                   (* %u *)
| Hex (n : N)                    (* %x *)
| Long (z : Z) (small : bool)    (* %l or %i *)
| Ulong (n : N) (small : bool)   (* %U or %I *)
| Lhex (n : N)                   (* %X *)
| Real (m : Z).                  (* %f, in millionths *)

(** How it is written in a call: its place in the format, and its argument. *)
Definition item_fmt (i : item) : bytes :=
  match i with
  | Lit t => t
  | Text _ => text "%s"
  | Str _ => text "%S"
  | Char _ => text "%c"
  | Int _ => text "%d"
  | Uint _ => text "%u"
  | Hex _ => text "%x"
  | Long _ b => if b then text "%i" else text "%l"
  | Ulong _ b => if b then text "%I" else text "%U"
  | Lhex _ => text "%X"
  | Real _ => text "%f"
  end.
Definition item_args (i : item) : list arg :=
  match i with
  | Lit _ => []
  | Text t => [AText t]
  | Str t => [AString t]
  | Char c => [AInt (Z.of_N c)]
  | Int z => [AInt z]
  | Uint n | Hex n => [AInt (Z.of_N n)]
  | Long z _ => [ALong z]
  | Ulong n _ | Lhex n => [ALong (Z.of_N n)]
  | Real m => [AReal m]
  end.
(** What the reader of the log sees. *)
Definition item_text (i : item) : bytes :=
  match i with
  | Lit t | Text t | Str t => t
  | Char c => [c]
  | Int z | Long z _ => decimal z
  | Uint n | Ulong n _ => to_base 10 n
  | Hex n | Lhex n => to_base 16 n
  | Real m => real_text m
  end.
(** Values of the types that the directives are for, and no percent sign in the
    characters that stand for themselves. *)
Definition item_ok (i : item) : Prop :=
  match i with
  | Lit t => ~ In 37 t
  | Text _ | Str _ => True
  | Char c => c < 256
  | Int z => (- 2 ^ 31 <= z < 2 ^ 31)%Z
  | Uint n | Hex n => n < 2 ^ 32
  | Long z _ => (- 2 ^ 63 <= z < 2 ^ 63)%Z
  | Ulong n _ | Lhex n => n < 2 ^ 64
  | Real m => (Z.abs m < 10 ^ 250)%Z
  end.

(** A number read from its digits. *)
Definition digit_value (c : N) : N := if c <? 58 then c - 48 else c - 87.
Definition number (b : N) (t : bytes) : N := fold_left (fun n c => n * b + digit_value c) t 0.
Definition is_digit (b c : N) : Prop := (48 <= c <= 57 \/ 97 <= c <= 102) /\ digit_value c < b.
(** Digits without needless zeros that mean [n]. *)
Definition denotes (b : N) (t : bytes) (n : N) : Prop :=
  t <> [] /\ Forall (is_digit b) t /\ number b t = n /\ (hd 0 t = 48 -> t = [48]).

(** The name of a level, for the log file, and as it is shown on a terminal: blue,
    green, yellow or red. *)
Definition level_name (level : N) : bytes :=
  if level =? 1 then text "REPORT" else if level =? 2 then text "DEBUG" else if level =? 3 then text "WARN" else text "ERROR".
Definition coloured (level : N) : bytes :=
  27 :: text "[3" ++ [if level =? 1 then 52 else if level =? 2 then 50 else if level =? 3 then 51 else 49] ++ text "m" ++
  level_name level ++ 27 :: text "[0m".
(** What stands before a message: nothing at level 0 ("none"); else the date, the
    level, from "debug" on the place in the program, and the number of the process. *)
Definition prefix (level : N) (name : bytes) (u : utc) (src func : bytes) (line pid : Z) : bytes :=
  if level =? 0 then []
  else digits2 (month u) ++ text "/" ++ digits2 (day u) ++ text "/" ++ decimal (year u) ++ text " " ++
       digits2 (hour u) ++ text ":" ++ digits2 (minute u) ++ text ":" ++ digits2 (second u) ++ text " UTC " ++
       name ++ text ": " ++
       (if 2 <=? level then src ++ text ":" ++ func ++ text ":" ++ decimal line ++ text ": " else []) ++
       text "PID:" ++ decimal pid ++ text " ".

(** ** Histories *)

(** The calls of thread [t] among the events. *)
Definition made (t : nat) (e : event) : list call :=
  match e with Call s c => if Nat.eqb s t then [c] else [] | _ => [] end.
(** The calls of thread [t] whose turn has come. *)
Definition entered (t : nat) (o : output) : list call :=
  match o with
  | Entered s c _ _ _ => if Nat.eqb s t then [c] else []
  | Opened s path lv => if Nat.eqb s t then [Reload path lv] else []
  | _ => []
  end.
(** The levels that thread [t] has asked for in configurations, and has set. *)
Definition asked (t : nat) (o : output) : list N :=
  match o with Opened s _ (NewLevel l) => if Nat.eqb s t then [l] else [] | _ => [] end.
Definition configured (t : nat) (o : output) : list N :=
  match o with Configured s l => if Nat.eqb s t then [l] else [] | _ => [] end.
(** The bytes of the calls whose turn has come, for file [f], one after the other. *)
Definition process_of (st : state) (t : nat) : option proc :=
  match nth_error (s_threads st) t with Some th => nth_error (s_procs st) (t_proc th) | None => None end.
(** What one call has to say: a raw call its text, once and as it is; a formatted call
    what [log_says] says of [process]. *)
Definition text_of (pid : Z) (level : N) (now : Z) (c : call) : bytes :=
  match c with
  | Log lv src func line fmt args =>
      match process level lv src func line pid now fmt args with Some ps => flat_map fst ps | None => [] end
  | Raw t => t
  | Reload _ _ => []
  end.
Definition said (st : state) (f : nat) (o : output) : bytes :=
  match o with
  | Entered t c g level now =>
      if Nat.eqb g f then
        match process_of st t with
        | Some x => text_of (p_pid x) level now c
        | None => []
        end
      else []
  | _ => []
  end.
(** The file and the level of process [p] after some outputs: those of the last
    configuration. *)
Definition setting (st : state) (p : nat) (s : nat * N) (o : output) : nat * N :=
  let mine t := match nth_error (s_threads st) t with Some th => Nat.eqb (t_proc th) p | None => false end in
  match o with
  | Opened t (Some f) _ => if mine t then (f, snd s) else s
  | Configured t l => if mine t then (fst s, l) else s
  | _ => s
  end.
Definition settings (st : state) (p : nat) (s : nat * N) (out : list output) : nat * N := fold_left (setting st p) out s.

(** Nobody is in a call or has a lock. *)
Definition quiet (st : state) : Prop :=
  (forall th, In th (s_threads st) -> t_frames th = []) /\
  (forall x, In x (s_procs st) -> p_owner x = None) /\
  (forall fl, In fl (s_files st) -> f_owner fl = None).
(** Every thread has a process, and every process a file. *)
Definition whole (st : state) : Prop :=
  (forall th, In th (s_threads st) -> (t_proc th < length (s_procs st))%nat) /\
  (forall x, In x (s_procs st) -> (p_fd x < length (s_files st))%nat).
Definition file_text (st : state) (f : nat) : bytes := match nth_error (s_files st) f with Some fl => f_text fl | None => [] end.
Definition frames (st : state) (t : nat) : list frame := match nth_error (s_threads st) t with Some th => t_frames th | None => [] end.

(** Every [write] writes all it is given, and no wait for a lock is interrupted. *)
Definition calm (e : event) : Prop :=
  match e with Call _ _ => True | Go _ _ cut => cut = None | Interrupt _ _ => False end.
(** No configuration with a wrong level is loaded. *)
Definition levels_known (e : event) : Prop :=
  match e with Call _ (Reload _ BadLevel) => False | _ => True end.

(** Calls as they should be: the format and the arguments belong together, and files
    that are opened exist. *)
Definition proper (st : state) (c : call) : Prop :=
  match c with
  | Log level _ _ line fmt args => level <= 4 /\ (- 2 ^ 31 <= line < 2 ^ 31)%Z /\
      exists items, Forall item_ok items /\ fmt = flat_map item_fmt items /\ args = flat_map item_args items
  | Raw _ => True
  | Reload (Some f) _ => (f < length (s_files st))%nat
  | Reload None _ => True
  end.
Definition proper_event (st : state) (e : event) : Prop :=
  match e with Call _ c => proper st c | Go _ now _ | Interrupt _ now => (0 <= now < 2 ^ 63)%Z end.
Definition pids (st : state) : Prop := forall x, In x (s_procs st) -> (- 2 ^ 31 <= p_pid x < 2 ^ 31)%Z.

(** A thread goes on with the call it is in. *)
Definition goes (e : event) : Prop := match e with Go _ _ None => True | _ => False end.
