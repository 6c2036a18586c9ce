(** What jobs are: each runs the program it was made from, and names stand for jobs. *)
Require Import List Arith NArith Bool.
Require Import Verif.Base Verif.LjobModel.
Import ListNotations.
Open Scope N_scope.

(** Names of files that are not read to find their program: from the root or with an at sign *)
Definition path (s : list N) : Prop := exists r, s = 47 :: r \/ s = 64 :: r.
(** What the world and the callers have to keep for programs to be found by their text: a file does not change while a job is made from it, and no
    program begins like such a name. *)
Definition steady (o : op) : Prop :=
  match o with
  | New Buf content _ _ _ => ~ path content
  | New File content _ w _ => path content \/ first w = second w /\ forall t, first w = Some t -> ~ path t
  | _ => True
  end.
(** The text that a job made by [o], behind the operations [h], may run: that of the call, or of the file; for a path, what the file was for a job
    made by this name in the half minute before. *)
Definition fresh (k : kind) (content : list N) (w : world) (t : list N) : Prop := match k with Buf => t = content | File => second w = Some t end.
Definition allowed (h : list op) (k : kind) (content : list N) (w : world) (t : list N) : Prop :=
  fresh k content w t \/
  (k = File /\ path content /\ exists a w' f', In (New File content a w' f') h /\ second w' = Some t /\ (now w + (2 ^ 64 - now w')) mod 2 ^ 64 < 30000000).
(** A job has no program only if there is none, it cannot be read, or for want of memory. *)
Definition no_program (k : kind) (w : world) (f : option stage) : Prop := parses w = false \/ f <> None \/ k = File /\ (first w = None \/ second w = None).

(** The jobs: number, program, name; and the names that were asked for while a job had them *)
Record world_of_jobs := mkWJ { live : list (nat * option (list N) * option (list N)); twice : list (list N) }.
Definition num (x : nat * option (list N) * option (list N)) : nat := fst (fst x).
Definition text (x : nat * option (list N) * option (list N)) : option (list N) := snd (fst x).
Definition name (x : nat * option (list N) * option (list N)) : option (list N) := snd x.
Definition held (d : world_of_jobs) (a : list N) : Prop := exists x, In x (live d) /\ name x = Some a.
Definition without (k : nat) (l : list (nat * option (list N) * option (list N))) := filter (fun x => negb (Nat.eqb (num x) k)) l.
Definition known (d : world_of_jobs) (j : nat) : Prop := In j (map num (live d)).

Definition follows1 (h : list op) (d : world_of_jobs) (o : op) (a : out) (d' : world_of_jobs) : Prop :=
  match o with
  | Caching => a = Done /\ d' = d
  | New k content n w f =>
      (forall s, In s (twice d') <-> In s (twice d) \/ n = Some s /\ held d s) /\
      ((a = Refused /\ live d' = live d /\ (f <> None \/ exists s, n = Some s /\ held d s)) \/
       (exists j t, a = Made j /\ ~ known d j /\ live d' = live d ++ [(j, t, n)] /\
          (forall s, n = Some s -> ~ In s (twice d) -> ~ held d s) /\
          match t with Some t => Forall steady (h ++ [o]) -> allowed h k content w t | None => no_program k w f end))
  | Free j => a = Done /\ known d j /\ d' = mkWJ (without j (live d)) (twice d)
  | Kill j s =>
      a = Done /\ known d j /\ twice d' = twice d /\
      ((live d' = live d /\ (In s (twice d) \/ ~ held d s)) \/
       exists x, In x (live d) /\ name x = Some s /\ num x <> j /\ live d' = without (num x) (live d))
  | Use j => d' = d /\ exists x, In x (live d) /\ num x = j /\ a = Ran (text x)
  end.
Fixpoint follows (h : list op) (d : world_of_jobs) (os : list op) (outs : list out) (d' : world_of_jobs) : Prop :=
  match os, outs with
  | [], [] => d' = d
  | o :: os, a :: outs => exists e, follows1 h d o a e /\ follows (h ++ [o]) e os outs d'
  | _, _ => False
  end.
(** What a caller has to keep: it names jobs that are there, and a job does not end itself. *)
Definition proper (d : world_of_jobs) (o : op) : Prop :=
  match o with
  | Free j | Use j => known d j
  | Kill j s => known d j /\ forall x, In x (live d) -> num x = j -> name x <> Some s
  | _ => True
  end.
