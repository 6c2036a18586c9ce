(** Model of how the jobs of the script language are run: src/mln_lang.c:846-908 mln_lang_run_handler, with 1217-1234, 1297-1318 and 1333-1346. Several threads
    may call the handler. What is done under the lock is one action here, as is each step of a program and each look at the two flags of a job
    without the lock. A job is known by a number (the program knows it by a pointer); a program is the list of its steps, with what each does to the
    job; garbage is not collected (C53). A call that finds the lock taken does nothing (853-855) and is left out. What the functions signal and clear of
    the language do is a flag: while it is set, the handler is called. A signal fails only at the beginning of a job. *)
Require Import List Arith NArith Bool.
Require Import Verif.Base.
Import ListNotations.

(** A step of a program: what it does, and whether it suspends the job or sets its flag quit *)
Record act := mkA { what : N; sleeps : bool; quits : bool }.
(** include/mln_lang.h mln_lang_ctx_s: what is left on the stack, ref, quit and owner *)
Record job := mkJ { prog : list act; ref : bool; quit : bool; owner : option nat }.
(** Where a thread is: outside the handler; at 869 with [n] steps done; at 873 after such a step; at 896; at 877; at 900 *)
Inductive pc := Out | In_ (j n : nat) | Check (j n : nat) | Leave (j : nat) | Ended (j : nat) | Last.
(** The two chains of the language, the jobs, the threads, the flag, and how many jobs there have been *)
Record state := mkS { runq : list nat; waitq : list nat; info : nat -> job; pcs : nat -> pc; flag : bool; made : nat }.
(** A job is used after it was freed. *)
Inductive fault := Freed.
Inductive res (A : Type) := Ok (a : A) | Fault (f : fault).
Arguments Ok {A}. Arguments Fault {A}.
(** What can be seen: a job is made; a thread begins and ends a turn of it; a step; the return handler is called and the job freed by a thread; the
    job is suspended and continued; it is freed by somebody else. *)
Inductive event :=
| Born (j : nat) (p : list act) | Enter (t j : nat) | Exit (t j : nat) | Ran (t j : nat) (a : act) | Returned (t j : nat)
| Slept (j : nat) | Woke (j : nat) | Killed (j : nat).

Definition upd {A} (f : nat -> A) (i : nat) (a : A) : nat -> A := fun x => if x =? i then a else f x.
(** include/mln_utils.h:124-142 the macro of mln_lang_ctx_chain_del *)
Definition del (j : nat) (l : list nat) : list nat := filter (fun x => negb (x =? j)) l.
Definition nonempty (l : list nat) : bool := match l with [] => false | _ => true end.
(** A job that was not freed is in one of the chains. *)
Definition held (s : state) (j : nat) : bool := existsb (Nat.eqb j) (runq s) || existsb (Nat.eqb j) (waitq s).

(** src/mln_lang.c:746-800 mln_lang_new *)
Definition start : state := mkS [] [] (fun _ => mkJ [] false false None) (fun _ => Out) false 0.
(** src/mln_lang.c:1297-1318 __mln_lang_job_new; [ok] says whether the signal succeeds. *)
Definition job_new (s : state) (p : list act) (ok : bool) : state * list event :=
  if ok then (mkS (runq s ++ [made s]) (waitq s) (upd (info s) (made s) (mkJ p false false None)) (pcs s) true (S (made s)), [Born (made s) p])
  else (s, []).
(** src/mln_lang.c:1217-1222 mln_lang_ctx_suspend *)
Definition suspend (s : state) (j : nat) : state * list event :=
  let x := info s j in
  if ref x then (s, [])
  else (mkS (del j (runq s)) (waitq s ++ [j]) (upd (info s) j (mkJ (prog x) true (quit x) (owner x))) (pcs s) (flag s) (made s), [Slept j]).
(** src/mln_lang.c:1224-1234 mln_lang_ctx_continue *)
Definition continue (s : state) (j : nat) : state * list event :=
  let x := info s j in
  if ref x then (mkS (runq s ++ [j]) (del j (waitq s)) (upd (info s) j (mkJ (prog x) false (quit x) (owner x))) (pcs s) true (made s), [Woke j])
  else (s, []).
(** src/mln_lang.c:1333-1346 __mln_lang_job_free *)
Definition job_free (s : state) (j : nat) : state :=
  let r := if ref (info s j) then runq s else del j (runq s) in
  let w := if ref (info s j) then del j (waitq s) else waitq s in
  mkS r w (info s) (pcs s) (nonempty r) (made s).
Definition at_ (s : state) (t : nat) (p : pc) : state := mkS (runq s) (waitq s) (info s) (upd (pcs s) t p) (flag s) (made s).
Definition with_job (s : state) (j : nat) (x : job) : state := mkS (runq s) (waitq s) (upd (info s) j x) (pcs s) (flag s) (made s).
(** 901-902 *)
Definition wake (s : state) : state := mkS (runq s) (waitq s) (info s) (pcs s) (if nonempty (runq s) then true else flag s) (made s).

(** src/mln_lang.c:853-867, 903-905: the beginning of a call of the handler *)
Definition call (s : state) (t : nat) : state * list event :=
  let clear := mkS (runq s) (waitq s) (info s) (pcs s) false (made s) in
  match runq s with
  | j :: _ =>
      let x := info s j in
      match owner x with
      | None => (at_ (with_job (mkS (del j (runq s) ++ [j]) (waitq s) (info s) (pcs s) (flag s) (made s)) j (mkJ (prog x) (ref x) (quit x) (Some t)))
                     t (In_ j 0), [Enter t j])
      | Some _ => (clear, [])
      end
  | [] => (clear, [])
  end.
(** src/mln_lang.c:869-902: what a thread in the handler does next; M_LANG_DEFAULT_STEP is 1700 (include/mln_lang.h:26). *)
Definition go (s : state) (t : nat) : res (state * list event) :=
  match pcs s t with
  | Out => Ok (s, [])
  | In_ j n =>
      if held s j then
        let x := info s j in
        if n <? 1700 then
          match prog x with
          | [] => Ok (at_ s t (Ended j), [])
          | a :: p =>
              let s := with_job s j (mkJ p (ref x) (quit x || quits a) (owner x)) in
              let (s, e) := if sleeps a then suspend s j else (s, []) in
              Ok (at_ s t (Check j n), e ++ [Ran t j a])
          end
        else Ok (at_ s t (Leave j), [])
      else Fault Freed
  | Check j n =>
      if held s j then
        if ref (info s j) then Ok (at_ s t (Leave j), [])
        else if quit (info s j) then Ok (at_ s t (Ended j), [])
        else Ok (at_ s t (In_ j (S n)), [])
      else Fault Freed
  | Leave j =>
      if held s j then
        let x := info s j in Ok (wake (at_ (with_job s j (mkJ (prog x) (ref x) (quit x) None)) t Out), [Exit t j])
      else Fault Freed
  | Ended j => if held s j then Ok (at_ (job_free s j) t Last, [Returned t j]) else Fault Freed
  | Last => Ok (wake (at_ s t Out), [])
  end.

(** What happens: a job is made, suspended, continued or freed, under the lock; a thread outside calls the handler; a thread goes on in it. *)
Inductive op := New (p : list act) (ok : bool) | Suspend (j : nat) | Continue (j : nat) | Kill (j : nat) | Call (t : nat) | Go (t : nat).
(** The events of an operation, the newest first *)
Definition step (s : state) (o : op) : res (state * list event) :=
  match o with
  | New p ok => Ok (job_new s p ok)
  | Suspend j => if held s j then Ok (suspend s j) else Fault Freed
  | Continue j => if held s j then Ok (continue s j) else Fault Freed
  | Kill j => if held s j then Ok (job_free s j, [Killed j]) else Fault Freed
  | Call t => match pcs s t with Out => Ok (call s t) | _ => Ok (s, []) end
  | Go t => go s t
  end.
(** A history of operations, and all its events, the newest first *)
Fixpoint run (s : state) (h : list event) (os : list op) : res (state * list event) :=
  match os with [] => Ok (s, h) | o :: os => match step s o with Ok (s, e) => run s (e ++ h) os | Fault f => Fault f end end.
