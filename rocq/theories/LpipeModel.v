(** Model of the pipe between C and a script: src/mln_lang.c:8083-8531 and the resources of a context, 7936-7976. Each operation holds the lock of
    the pipe, so that histories of operations are enough; but the pipe is looked for without a lock, and its making from two threads at once
    is not modelled, nor that the pool of the context is used by both. The array of a script that is built from messages is a list here (C71 is about such arrays). *)
Require Import List Arith NArith ZArith Bool.
Require Import Verif.Base.
Import ListNotations.
Open Scope N_scope.

(** include/mln_lang.h mln_lang_ctx_pipe_elem_s: an integer, a real (its 64 bits) or a string *)
Inductive value := Int (i : Z) | Real (r : N) | Str (s : list N).
(** What the caller passes behind the format: integer, real, the memory from the beginning of a string of C, string of the library *)
Inductive arg := AInt (i : Z) | AReal (r : N) | AText (s : list N) | AStr (s : list N).
(** include/mln_lang.h mln_lang_ctx_pipe_s: the messages, the room of their array, the handler (by a number) and the flag *)
Record pipe := mkP { list_ : list (list value); room : nat; handler : option N; subscribed : bool }.
(** The pipe of a context, if one is registered under its name *)
Definition ctx := option pipe.

(** Where an operation has no memory: for the pipe, its lock, its array, the resource, its name, its node in the tree, the answer *)
Inductive stage := ForPipe | ForLock | ForList | ForResource | ForName | ForNode | ForAnswer.
(** An argument of another type is read, or none, or a string of C without an end; the pipe is freed twice *)
Inductive fault := Argument | Twice.
Inductive res (A : Type) := Ok (a : A) | Fault (f : fault).
Arguments Ok {A}. Arguments Fault {A}.
Definition rbind {A B} (r : res A) (f : A -> res B) : res B := match r with Ok a => f a | Fault e => Fault e end.
Definition answers (f : option stage) : bool := match f with Some ForAnswer => false | _ => true end.

(** src/mln_lang.c:8083-8115 mln_lang_ctx_pipe_new; MLN_LANG_PIPE_LIST_NALLOC is 1024 (include/mln_lang.h:28). *)
Definition pipe_new (f : option stage) : option pipe :=
  match f with Some ForPipe | Some ForLock | Some ForList => None | _ => Some (mkP [] 1024 None false) end.
(** src/mln_lang.c:7936-7957 mln_lang_ctx_resource_register, and after its failure mln_lang_ctx_pipe_free (8262, 8517): without memory for the
    node the handler of the resource has freed the pipe already (7959-7964). *)
Definition register (p : pipe) (f : option stage) : res (option pipe) :=
  match f with Some ForResource | Some ForName => Ok None | Some ForNode => Fault Twice | _ => Ok (Some p) end.
(** src/mln_lang.c:8256-8266, 8512-8520: the pipe of the context, made if there is none *)
Definition obtain (c : ctx) (f : option stage) : res (option pipe) :=
  match c with
  | Some p => Ok (Some p)
  | None => match pipe_new f with None => Ok None | Some p => register p f end
  end.

(** One flag for each time memory is asked for; no flag means that there is some. *)
Definition alloc (m : list bool) : bool * list bool := match m with [] => (true, []) | b :: m => (b, m) end.
(** src/mln_array.c:120-126 mln_array_push, with 140-163 mln_array_alloc: the room is doubled when it is used up. *)
Definition grow (n room : nat) (m : list bool) : option (nat * list bool) :=
  if (room <=? n)%nat then let (b, m) := alloc m in if b then Some ((2 * room)%nat, m) else None else Some (room, m).
(** The message that is being made is the last of the array. *)
Definition change_last {A} (f : A -> A) (l : list A) : list A :=
  match rev l with [] => [] | x :: r => rev r ++ [f x] end.
(** strlen, in mln_string_set: the bytes before the first zero *)
Fixpoint upto0 (s : list N) : option (list N) :=
  match s with [] => None | b :: s => if b =? 0 then Some [] else match upto0 s with Some r => Some (b :: r) | None => None end end.
(** src/mln_lang.c:8443-8499: the loop of mln_lang_ctx_pipe_do_send, and 8135-8155 mln_lang_ctx_pipe_elem_init. [erm] is the room of the array
    of the message. The second result is false for -1. *)
Fixpoint fill (p : pipe) (erm n : nat) (fmt : list N) (args : list arg) (m : list bool) : res (pipe * bool) :=
  let pop := mkP (removelast (list_ p)) (room p) (handler p) (subscribed p) in
  match fmt with
  | [] => Ok (p, true)
  | ch :: fmt =>
      match grow n erm m with
      | None => Ok (pop, false)
      | Some (erm, m) =>
          let add v := mkP (change_last (fun l => l ++ [v]) (list_ p)) (room p) (handler p) (subscribed p) in
          let dup s args := let (b, m) := alloc m in if b then fill (add (Str s)) erm (S n) fmt args m else Ok (pop, false) in
          if ch =? 105 then match args with AInt i :: args => fill (add (Int i)) erm (S n) fmt args m | _ => Fault Argument end
          else if ch =? 115 then match args with AText s :: args => match upto0 s with Some s => dup s args | None => Fault Argument end | _ => Fault Argument end
          else if ch =? 83 then match args with AStr s :: args => dup s args | _ => Fault Argument end
          else if ch =? 114 then match args with AReal r :: args => fill (add (Real r)) erm (S n) fmt args m | _ => Fault Argument end
          else Ok (pop, false)
      end
  end.
(** src/mln_lang.c:8401-8506 mln_lang_ctx_pipe_do_send; MLN_LANG_PIPE_ELEM_NALLOC is 6 (include/mln_lang.h:29). The pipe is that of the context. *)
Definition send (c : ctx) (fmt : list N) (args : list arg) (m : list bool) : res (ctx * bool) :=
  match c with
  | None => Ok (None, true)
  | Some p =>
      if negb (subscribed p) then Ok (c, false)
      else
        match grow (length (list_ p)) (room p) m with
        | None => Ok (c, false)
        | Some (room, m) =>
            let p := mkP (list_ p ++ [[]]) room (handler p) (subscribed p) in
            let (b, m) := alloc m in
            if b then rbind (fill p 6 0 fmt args m) (fun r => Ok (Some (fst r), snd r))
            else Ok (Some (mkP (removelast (list_ p)) room (handler p) (subscribed p)), false)
        end
  end.

(** src/mln_lang.c:8325-8387 mln_lang_func_pipe_process_array_generate: one message, then all; nothing if there is no memory. *)
Fixpoint items (vs : list value) (a : list value) (m : list bool) : option (list value * list bool) :=
  match vs with
  | [] => Some (a, m)
  | v :: vs =>
      let (b, m) := alloc m in
      if b then
        match v with
        | Str s => let (b, m) := alloc m in if b then items vs (a ++ [Str s]) m else None
        | v => items vs (a ++ [v]) m
        end
      else None
  end.
Fixpoint messages (l : list (list value)) (a : list (list value)) (m : list bool) : option (list (list value)) :=
  match l with
  | [] => Some a
  | vs :: l =>
      let (b1, m) := alloc m in
      if b1 then
        let (b2, m) := alloc m in
        if b2 then match items vs [] m with Some (x, m) => messages l (a ++ [x]) m | None => None end else None
      else None
  end.
(** The answers of the function Pipe of the script (src/mln_lang.c:8215-8323): nil, an array of messages, a truth value, or an error *)
Inductive answer := Nil | Got (l : list (list value)) | Is (b : bool) | Error.
Definition recv (c : ctx) (m : list bool) : ctx * answer :=
  match c with
  | None => (None, if fst (alloc m) then Is false else Error)
  | Some p =>
      let (b, m) := alloc m in
      if b then match messages (list_ p) [] m with
                | Some l => (Some (mkP [] (room p) (handler p) (subscribed p)), Got l)
                | None => (c, Error)
                end
      else (c, Error)
  end.

(** What a program does: the script subscribes, unsubscribes, receives and sends (with what the handler returns); C sends and sets the handler. *)
Inductive op :=
| Subscribe (f : option stage) | Unsubscribe (f : option stage) | Recv (m : list bool) | Tell (v : value) (rc : Z) (f : option stage)
| Send (fmt : list N) (args : list arg) (m : list bool) | Handler (h : option N) (f : option stage).
(** Its answers: those of the function Pipe, with the call of a handler, and the number that C gets *)
Inductive out := Script (a : answer) | Called (h : N) (v : value) (a : answer) | Rc (ok : bool).
Definition with_flag (p : pipe) (b : bool) : pipe := mkP (list_ p) (room p) (handler p) b.
Definition step (c : ctx) (o : op) : res (ctx * out) :=
  match o with
  | Subscribe f => rbind (obtain c f) (fun r =>
      match r with
      | None => Ok (c, Script Error)
      | Some p => Ok (Some (with_flag p true), Script (if answers f then Nil else Error))
      end)
  | Unsubscribe f => Ok (option_map (fun p => with_flag p false) c, Script (if answers f then Nil else Error))
  | Recv m => let (c, a) := recv c m in Ok (c, Script a)
  | Tell v rc f =>
      match c with
      | None => Ok (c, Script (if answers f then Is false else Error))
      | Some p =>
          match handler p with
          | Some h => Ok (c, Called h v (if answers f then Is (rc =? 0)%Z else Error))
          | None => Ok (c, Script (if answers f then Is true else Error))
          end
      end
  | Send fmt args m => rbind (send c fmt args m) (fun r => Ok (fst r, Rc (snd r)))
  | Handler h f => rbind (obtain c f) (fun r =>
      match r with
      | None => Ok (c, Rc false)
      | Some p => Ok (Some (mkP (list_ p) (room p) h (subscribed p)), Rc true)
      end)
  end.
Fixpoint run (c : ctx) (os : list op) : res (ctx * list out) :=
  match os with
  | [] => Ok (c, [])
  | o :: os => rbind (step c o) (fun r => rbind (run (fst r) os) (fun q => Ok (fst q, snd r :: snd q)))
  end.
