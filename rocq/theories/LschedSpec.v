(** What the running of jobs should be, told from the events alone (the newest first). *)
Require Import List Arith Bool.
Require Import Verif.LschedModel.
Import ListNotations.

Definition without (j : nat) (l : list nat) : list nat := filter (fun x => negb (x =? j)) l.
(** The jobs that want a turn, in their order: a new or continued job, or one whose turn begins, is the last. *)
Fixpoint queue (h : list event) : list nat :=
  match h with
  | [] => []
  | e :: h =>
      match e with
      | Born j _ | Woke j => queue h ++ [j]
      | Enter _ j => without j (queue h) ++ [j]
      | Slept j | Returned _ j | Killed j => without j (queue h)
      | _ => queue h
      end
  end.
(** The suspended jobs *)
Fixpoint sleepers (h : list event) : list nat :=
  match h with
  | [] => []
  | e :: h =>
      match e with
      | Slept j => sleepers h ++ [j]
      | Woke j | Returned _ j | Killed j => without j (sleepers h)
      | _ => sleepers h
      end
  end.
Definition alive (h : list event) (j : nat) : Prop := In j (queue h) \/ In j (sleepers h).
(** The program of a job and the steps it has done *)
Fixpoint program (h : list event) (j : nat) : option (list act) :=
  match h with [] => None | Born i p :: h => if i =? j then Some p else program h j | _ :: h => program h j end.
Fixpoint done (h : list event) (j : nat) : list act :=
  match h with [] => [] | Ran _ i a :: h => if i =? j then done h j ++ [a] else done h j | _ :: h => done h j end.
(** The job whose turn a thread is running, and the steps of that turn *)
Fixpoint inside (h : list event) (t : nat) : option nat :=
  match h with
  | [] => None
  | Enter u j :: h => if u =? t then Some j else inside h t
  | Exit u _ :: h | Returned u _ :: h => if u =? t then None else inside h t
  | _ :: h => inside h t
  end.
Fixpoint turn (h : list event) (t : nat) : nat :=
  match h with
  | [] => 0
  | Enter u _ :: h => if u =? t then 0 else turn h t
  | Ran u _ _ :: h => if u =? t then S (turn h t) else turn h t
  | _ :: h => turn h t
  end.
(** The job was told to quit, and was not continued since. *)
Fixpoint quitting (h : list event) (j : nat) : bool :=
  match h with
  | [] => false
  | Ran _ i a :: h => if (i =? j) && quits a then true else quitting h j
  | Woke i :: h => if i =? j then false else quitting h j
  | _ :: h => quitting h j
  end.

(** The job did a step while it was suspended, and was not continued since. *)
Fixpoint overran (h : list event) (j : nat) : bool :=
  match h with
  | [] => false
  | Ran _ i _ :: h => if (i =? j) && existsb (Nat.eqb j) (sleepers h) then true else overran h j
  | Woke i :: h => if i =? j then false else overran h j
  | _ :: h => overran h j
  end.
(** The job was suspended since its last turn began. *)
Fixpoint paused (h : list event) (j : nat) : bool :=
  match h with
  | [] => false
  | Slept i :: h => if i =? j then true else paused h j
  | Enter _ i :: h => if i =? j then false else paused h j
  | _ :: h => paused h j
  end.

(** What may happen after the events [h]. *)
Definition legal (h : list event) (e : event) : Prop :=
  match e with
  (** A job is made once. *)
  | Born j p => program h j = None /\ ~ alive h j
  (** The turn is that of the first job, and no other thread is in a turn of it. *)
  | Enter t j => (exists l, queue h = j :: l) /\ inside h t = None /\ (forall u, inside h u <> Some j)
  (** A step is the next of its program, in a turn of this thread, which has no more than 1700 steps; a job told to quit does none, and a
      suspended job at most one, which was about to begin. *)
  | Ran t j a => inside h t = Some j /\ alive h j /\ turn h t < 1700 /\ quitting h j = false /\ overran h j = false /\ exists p, program h j = Some (done h j ++ a :: p)
  (** A turn ends when the job is suspended or has done 1700 steps. *)
  | Exit t j => inside h t = Some j /\ alive h j /\ (turn h t = 1700 \/ paused h j = true)
  (** A job returns, from a turn of this thread, when its program is done or it was told to quit. *)
  | Returned t j => inside h t = Some j /\ alive h j /\ (program h j = Some (done h j) \/ existsb quits (done h j) = true)
  | Slept j => In j (queue h)
  | Woke j => In j (sleepers h)
  | Killed j => alive h j
  end.
Fixpoint lawful (h : list event) : Prop := match h with [] => True | e :: h => legal h e /\ lawful h end.

(** No job was freed in one of its turns by anybody else. *)
Fixpoint careful (h : list event) : Prop :=
  match h with [] => True | Killed j :: h => (forall t, inside h t <> Some j) /\ careful h | _ :: h => careful h end.
(** Operations on jobs that were not freed, and not the freeing of a job in its turn. *)
Definition sensible (h : list event) (o : op) : Prop :=
  match o with Suspend j | Continue j => alive h j | Kill j => alive h j /\ (forall t, inside h t <> Some j) | _ => True end.
(** The job begins a turn, or does not want one any more. *)
Definition about (j : nat) (e : event) : bool :=
  match e with Enter _ i | Returned _ i | Slept i | Killed i => i =? j | _ => false end.
Definition turns (h : list event) : nat := length (filter (fun e => match e with Enter _ _ => true | _ => false end) h).
