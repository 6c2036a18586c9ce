(** * The log (src/mln_log.c)

    First what one call writes, then several processes of several threads that
    write to log files at the same time, and last the path of the log file.

    Simplifications: texts are lists of bytes without their final zero; [printf] of
    the C library is modelled for the conversions used; what is copied to the
    standard error is in the model of one call only; a log file is a list of bytes
    to which each [write] appends ([O_APPEND]); a set logger (mln_log_logger_set) is
    the built-in one. *)

From Coq Require Import String Ascii List Arith NArith ZArith Bool.
From Verif Require Import Base HttpModel CalModel.
Import ListNotations.
Local Open Scope list_scope.
Local Open Scope N_scope.

(** ** Numbers as [printf] writes them *)

Definition digit (d : N) : N := if d <? 10 then 48 + d else 87 + d.
Fixpoint base_loop (fuel : nat) (b n : N) (acc : bytes) : bytes :=
  match fuel with
  | O => acc
  | S fuel => let acc := digit (n mod b) :: acc in if n <? b then acc else base_loop fuel b (n / b) acc
  end.
Definition to_base (b n : N) : bytes := base_loop (S (N.size_nat n)) b n [].
(** [%d], [%ld] *)
Definition decimal (z : Z) : bytes := if (z <? 0)%Z then 45 :: to_base 10 (Z.to_N (- z)) else to_base 10 (Z.to_N z).
(** [%02ld] *)
Definition two (z : Z) : bytes := let t := decimal z in if (length t <? 2)%nat then 48 :: t else t.
(** [%f]: the number of millionths is given, rounded as the C library does. *)
Definition real_text (m : Z) : bytes :=
  let a := Z.to_N (Z.abs m) in
  let low := to_base 10 (a mod 1000000) in
  (if (m <? 0)%Z then [45] else []) ++ to_base 10 (a / 1000000) ++ 46 :: repeat 48 (6 - length low) ++ low.

(** The values a 32-bit and a 64-bit word have. *)
Definition u32 (z : Z) : N := Z.to_N (z mod 2 ^ 32).
Definition u64 (z : Z) : N := Z.to_N (z mod 2 ^ 64).
Definition s32 (z : Z) : Z := (let r := z mod 2 ^ 32 in if r <? 2 ^ 31 then r else r - 2 ^ 32)%Z.
Definition s64 (z : Z) : Z := (let r := z mod 2 ^ 64 in if r <? 2 ^ 63 then r else r - 2 ^ 64)%Z.

(** src/mln_log.c:494-516,549-628: [snprintf(line_str, sizeof(line_str)-1, ...)] writes
    at most 254 bytes and a zero into 256 bytes of zeros, but returns the length of
    the whole text, and that many bytes are then written to the log.  [None]: bytes
    after the buffer are read. *)
Definition via_buffer (t : bytes) : option bytes :=
  let n := length t in
  if (n <=? 256)%nat then Some (firstn n (firstn 254 t ++ repeat 0 256)) else None.

(** ** One call *)

(** Arguments after the format: an int, a long, a text, a string, a double. *)
Inductive arg : Type :=
| AInt (z : Z)
| ALong (z : Z)
| AText (s : bytes)
| AString (s : bytes)
| AReal (m : Z).

(** src/mln_log.c:532-637: what is written for a directive; [None]: no directive.
    The inner [None]: the argument is not of the type asked for, or
    [via_buffer]. *)
Definition directive (d : N) : option (arg -> option bytes) :=
  if d =? 115 then Some (fun a => match a with AText s => Some s | _ => None end)                              (* s *)
  else if d =? 83 then Some (fun a => match a with AString s => Some s | _ => None end)                        (* S *)
  else if d =? 108 then Some (fun a => match a with ALong z => via_buffer (decimal (s64 z)) | _ => None end)   (* l *)
  else if d =? 100 then Some (fun a => match a with AInt z => via_buffer (decimal (s32 z)) | _ => None end)    (* d *)
  else if d =? 99 then Some (fun a => match a with AInt z => Some [u32 z mod 256] | _ => None end)             (* c *)
  else if d =? 102 then Some (fun a => match a with AReal m => via_buffer (real_text m) | _ => None end)       (* f *)
  else if d =? 120 then Some (fun a => match a with AInt z => via_buffer (to_base 16 (u32 z)) | _ => None end) (* x *)
  else if d =? 88 then Some (fun a => match a with ALong z => via_buffer (to_base 16 (u64 z)) | _ => None end) (* X *)
  else if d =? 117 then Some (fun a => match a with AInt z => via_buffer (to_base 10 (u32 z)) | _ => None end) (* u *)
  else if d =? 85 then Some (fun a => match a with ALong z => via_buffer (to_base 10 (u64 z)) | _ => None end) (* U *)
  else if d =? 105 then Some (fun a => match a with ALong z => via_buffer (decimal (s64 z)) | _ => None end)   (* i *)
  else if d =? 73 then Some (fun a => match a with ALong z => via_buffer (to_base 10 (u64 z)) | _ => None end) (* I *)
  else None.

(** What one call of mln_log_write or mln_log_level_write writes: the bytes for the
    log file, and those for the standard error if a copy goes there. *)
Definition piece : Type := (bytes * bytes)%type.
Definition same (t : bytes) : piece := (t, t).

(** src/mln_log.c:50 *)
Definition log_err_fmt : bytes := text "Log message format error.".

(** src/mln_log.c:520-641: the format; [lit] are the [cnt] bytes from [p] on. *)
Fixpoint body (lit fmt : bytes) (args : list arg) : option (list piece) :=
  match fmt with
  | [] => Some (match lit with [] => [] | _ => [same lit] end)
  | c :: fmt =>
      if c =? 37 then
        match fmt with
        | [] => Some [same lit; same log_err_fmt; same [10]]
        | d :: fmt =>
            match directive d with
            | None => Some [same lit; same log_err_fmt; same [10]]
            | Some conv =>
                match args with
                | [] => None
                | a :: args => t <- conv a ;; r <- body [] fmt args ;; Some (same lit :: same t :: r)
                end
            end
        end
      else body (lit ++ [c]) fmt args
  end.

(** src/mln_log.c:418-463: mln_log_level_write; the standard error gets colours. *)
Definition level_piece (level : N) : list piece :=
  if level =? 1 then [(text "REPORT: ", 27 :: text "[34mREPORT" ++ 27 :: text "[0m: ")]
  else if level =? 2 then [(text "DEBUG: ", 27 :: text "[32mDEBUG" ++ 27 :: text "[0m: ")]
  else if level =? 3 then [(text "WARN: ", 27 :: text "[33mWARN" ++ 27 :: text "[0m: ")]
  else if level =? 4 then [(text "ERROR: ", 27 :: text "[31mERROR" ++ 27 :: text "[0m: ")]
  else [].

(** src/mln_log.c:496-499 *)
Definition date_text (u : utc) : bytes :=
  two (month u) ++ [47] ++ two (day u) ++ [47] ++ decimal (year u) ++ [32] ++
  two (hour u) ++ [58] ++ two (minute u) ++ [58] ++ two (second u) ++ text " UTC ".

(** src/mln_log.c:479-642: _mln_sys_log_process; [set] is the level of the log. *)
Definition process (set level : N) (src func : bytes) (line pid now : Z) (fmt : bytes) (args : list arg) : option (list piece) :=
  if level <? set then Some []
  else
    u <- time2utc now ;;
    date <- (if 0 <? level then t <- via_buffer (date_text u) ;; Some [same t] else Some []) ;;
    place <- (if 2 <=? level
              then t <- via_buffer (decimal line) ;; Some [same src; same [58]; same func; same [58]; same t; same [58; 32]]
              else Some []) ;;
    who <- (if 0 <? level then t <- via_buffer (text "PID:" ++ decimal pid ++ [32]) ;; Some [same t] else Some []) ;;
    r <- body [] fmt args ;;
    Some (date ++ level_piece level ++ place ++ who ++ r).

(** ** Threads of processes *)

(** include/mln_log.h:24-36: what matters of [g_log] of one process: the file its
    descriptor is for, the level, and the thread that has [thread_lock]. *)
Record proc : Type := mkP { p_pid : Z; p_fd : nat; p_level : N; p_owner : option nat }.
(** A file: its bytes, and the process that has its lock ([fcntl], which knows
    processes but not threads). *)
Record file : Type := mkF { f_text : bytes; f_owner : option nat }.

(** What the configuration says about [log_level] when it is loaded again. *)
Inductive level_conf : Type := NoCommand | BadLevel | NewLevel (level : N).

(** mln_log, mln_log_writen, and mln_log_reload; [path] is the file opened, [None]
    if there is none. *)
Inductive call : Type :=
| Log (level : N) (src func : bytes) (line : Z) (fmt : bytes) (args : list arg)
| Raw (t : bytes)
| Reload (path : option nat) (lv : level_conf).

(** Where a thread is; one frame for each call it is in, the innermost first. *)
Inductive frame : Type :=
| Spin (c : call)              (* about to take [thread_lock] *)
| Flock (c : call)             (* has it, about to lock the file *)
| Write (ws : list bytes)      (* has both; what is still to be written *)
| SetLevel (lv : level_conf)   (* has both; about to set the level *)
| Unspin.                      (* has unlocked the file *)

Record thread : Type := mkT { t_proc : nat; t_frames : list frame }.
Record state : Type := mkS { s_files : list file; s_procs : list proc; s_threads : list thread }.

(** [Go t now cut]: thread [t] goes on; [now] is the time of day; [cut] is the
    number of bytes written if [write] does not write all.  [Interrupt t now]: a signal
    ends the wait for the lock of the file ([EINTR]). *)
Inductive event : Type :=
| Call (t : nat) (c : call)
| Go (t : nat) (now : Z) (cut : option nat)
| Interrupt (t : nat) (now : Z).

(** [Entered t c f level now]: thread [t] begins to write what [c] says to file [f].
    [Opened t path lv]: it begins to load the configuration again, and has opened the
    file.  [Configured t level]: it has set the level. *)
Inductive output : Type :=
| Entered (t : nat) (c : call) (f : nat) (level : N) (now : Z)
| Opened (t : nat) (path : option nat) (lv : level_conf)
| Configured (t : nat) (level : N)
| Returned (t : nat).

Inductive result : Type :=
| Done (st : state) (out : list output)
| Disabled     (* the event cannot happen here *)
| Fault.       (* the behaviour is not defined *)

Definition set_frames (st : state) (t : nat) (th : thread) (fs : list frame) : state :=
  mkS (s_files st) (s_procs st) (upd (s_threads st) t (mkT (t_proc th) fs)).
Definition set_proc (st : state) (p : nat) (x : proc) : state := mkS (s_files st) (upd (s_procs st) p x) (s_threads st).
Definition set_file (st : state) (f : nat) (x : file) : state := mkS (upd (s_files st) f x) (s_procs st) (s_threads st).

(** What a call writes to its file. *)
Definition writes (pid : Z) (level : N) (now : Z) (c : call) : option (list bytes) :=
  match c with
  | Log lv src func line fmt args => ps <- process level lv src func line pid now fmt args ;; Some (map fst ps)
  | Raw t => Some [t]
  | Reload _ _ => Some []
  end.

(** src/mln_log.c:371-376 (mln_log_reload, after mln_log_get_log), 393-399
    (_mln_sys_log), 470-472 (mln_log_writen): with the lock of the file, or without it
    if the wait for it was interrupted. *)
Definition enter (st : state) (t : nat) (th : thread) (x : proc) (c : call) (fs : list frame) (now : Z) : result :=
  match c with
  | Reload _ lv => Done (set_frames st t th (SetLevel lv :: fs)) []
  | _ => match writes (p_pid x) (p_level x) now c with
         | Some ws => Done (set_frames st t th (Write ws :: fs)) [Entered t c (p_fd x) (p_level x) now]
         | None => Fault
         end
  end.

(** src/mln_log.c:61-72: mln_file_lock: the lock of a file, for process [p] *)
Definition free_for (fl : file) (p : nat) : bool :=
  match f_owner fl with None => true | Some q => Nat.eqb q p end.
(** src/mln_log.c:74-85: mln_file_unlock *)
Definition unlock (fl : file) (p : nat) : file :=
  mkF (f_text fl) (match f_owner fl with Some q => if Nat.eqb q p then None else Some q | None => None end).

(** src/mln_log.c:356: the call of mln_log in mln_log_set_level, which has the
    locks already *)
Definition complaint : call :=
  Log 4 (text "src/mln_log.c") (text "mln_log_set_level") 356 (text "Parameter value of command [log_level] error." ++ [10]) [].

(** src/mln_log.c:365-378 mln_log_reload, 383-403 _mln_sys_log, 465-477 mln_log_writen:
    one step of a thread. *)
Definition go (st : state) (t : nat) (th : thread) (now : Z) (cut : option nat) : result :=
  match nth_error (s_procs st) (t_proc th) with
  | None => Fault
  | Some x =>
      match t_frames th with
      | [] => Disabled
      | Spin c :: fs =>
          match p_owner x with
          | Some _ => Disabled
          | None =>
              (* src/mln_log.c:370: mln_log_get_log opens the new file and closes the old one *)
              let fd := match c with Reload (Some f) _ => f | _ => p_fd x end in
              match nth_error (s_files st) fd with
              | None => Fault
              | Some _ =>
                  Done (set_frames (set_proc st (t_proc th) (mkP (p_pid x) fd (p_level x) (Some t))) t th (Flock c :: fs))
                       (match c with Reload path lv => [Opened t path lv] | _ => [] end)
              end
          end
      | Flock c :: fs =>
          match nth_error (s_files st) (p_fd x) with
          | None => Fault
          | Some fl =>
              if free_for fl (t_proc th)
              then enter (set_file st (p_fd x) (mkF (f_text fl) (Some (t_proc th)))) t th x c fs now
              else Disabled
          end
      | Write (w :: ws) :: fs =>
          match nth_error (s_files st) (p_fd x) with
          | None => Fault
          | Some fl =>
              let w := match cut with None => w | Some k => firstn k w end in
              Done (set_frames (set_file st (p_fd x) (mkF (f_text fl ++ w) (f_owner fl))) t th (Write ws :: fs)) []
          end
      | Write [] :: fs =>
          match nth_error (s_files st) (p_fd x) with
          | None => Fault
          | Some fl => Done (set_frames (set_file st (p_fd x) (unlock fl (t_proc th))) t th (Unspin :: fs)) []
          end
      (* src/mln_log.c:313-360: mln_log_set_level *)
      | SetLevel NoCommand :: fs => Done (set_frames st t th (Write [] :: fs)) []
      | SetLevel (NewLevel l) :: fs =>
          Done (set_frames (set_proc st (t_proc th) (mkP (p_pid x) (p_fd x) l (p_owner x))) t th (Write [] :: fs))
               [Configured t l]
      | SetLevel BadLevel :: fs => Done (set_frames st t th (Spin complaint :: Write [] :: fs)) []
      | Unspin :: fs =>
          Done (set_frames (set_proc st (t_proc th) (mkP (p_pid x) (p_fd x) (p_level x) None)) t th fs) [Returned t]
      end
  end.

Definition step (st : state) (e : event) : result :=
  match e with
  | Call t c =>
      match nth_error (s_threads st) t with
      | Some th => match t_frames th with
                   | [] => Done (set_frames st t th [Spin c]) []
                   | _ => Disabled
                   end
      | None => Disabled
      end
  | Go t now cut => match nth_error (s_threads st) t with Some th => go st t th now cut | None => Disabled end
  | Interrupt t now =>
      match nth_error (s_threads st) t with
      | Some th =>
          match nth_error (s_procs st) (t_proc th), t_frames th with
          | Some x, Flock c :: fs =>
              match nth_error (s_files st) (p_fd x) with
              | None => Fault
              | Some fl => if free_for fl (t_proc th) then Disabled else enter st t th x c fs now
              end
          | _, _ => Disabled
          end
      | None => Disabled
      end
  end.

Fixpoint run (st : state) (es : list event) : result :=
  match es with
  | [] => Done st []
  | e :: es =>
      match step st e with
      | Done st1 out1 =>
          match run st1 es with
          | Done st2 out2 => Done st2 (out1 ++ out2)
          | r => r
          end
      | r => r
      end
  end.

(** ** The path of the log file *)

(** The index of the last slash among the first [n] bytes. *)
Fixpoint last_slash (n : nat) (p : bytes) : option nat :=
  match n with
  | O => None
  | S k => if nth k p 0 =? 47 then Some k else last_slash k p
  end.

(** src/mln_log.c:167-274: mln_log_get_log; [deflt] is mln_path_log(), [root] is
    mln_path(), [cmd] the parameter of [log_path].  The result is [dir_path], the
    file opened and [log_path].  [None]: reading or writing outside a buffer. *)
Definition get_log (root deflt : bytes) (cmd : option bytes) : option (bytes * bytes * bytes) :=
  let in_buf (t : bytes) := (length t, firstn 1022 t, (length t <=? 1024)%nat) in
  let '(len, path, fits) :=
    match cmd with
    | None => in_buf deflt
    | Some s => if negb (nth 0 s 0 =? 47) && negb (nth 0 s 0 =? 46) then in_buf (root ++ 47 :: s)
                else (Nat.min (length s) 1023, s, true)
    end in
  if fits then
    match last_slash len path with
    | None => None
    | Some i => if (i <? 512)%nat && (len <? 1024)%nat then Some (firstn i path, path, firstn len path) else None
    end
  else None.
