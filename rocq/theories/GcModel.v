(** * Garbage collector (src/mln_gc.c)

    Objects are numbers above 0; 0 is the pointer NULL. The item that an object was
    given by [mln_gc_add] is named by the object's number: [item_getter] and
    [item_setter] keep this correspondence. The chains are lists; the tests of
    [proc_prev], [proc_next] and [proc_head] that ask whether an item is in the
    chain [proc] are membership in it. Memory for items is assumed.

    The handlers of the user are those of the script language (src/mln_lang.c): an
    object has a list of members, [member_setter] passes them all to
    [mln_gc_collect_add], [clean_searcher] passes them to [mln_gc_clean_add] and
    removes those for which it gives -1, and [item_freer] may release other objects,
    which are then taken out with [mln_gc_remove]. *)

From Coq Require Import List NArith Bool.
From Verif Require Import Base.
Import ListNotations.
Local Open Scope N_scope.

(** include/mln_gc.h:35-46: [struct mln_gc_item_s] *)
Record item : Type := mkItem { suspected : bool; credit : bool; inc : bool; visited : bool }.

(** include/mln_gc.h:48-64: [struct mln_gc_s]; [others] are the objects added to
    other collectors, whose chains are not in use. *)
Record gc : Type := mkGc {
  g_items : list N;
  g_others : list N;
  g_proc : list N;
  g_rec : N -> item
}.

Definition elem (x : N) (l : list N) : bool := existsb (N.eqb x) l.
Definition del (x : N) (l : list N) : list N := filter (fun y => negb (N.eqb x y)) l.
Definition rec_set (g : gc) (x : N) (r : item) : gc :=
  mkGc (g_items g) (g_others g) (g_proc g) (fun y => if N.eqb x y then r else g_rec g y).
Definition with_proc (g : gc) (l : list N) : gc := mkGc (g_items g) (g_others g) l (g_rec g).

(** src/mln_gc.c:28-42: [mln_gc_item_new] *)
Definition item_new : item := mkItem false false false false.

(** src/mln_gc.c:52-79: [mln_gc_new] *)
Definition gc_new (others : list N) (r : N -> item) : gc := mkGc [] others [] r.

(** src/mln_gc.c:95-103: [mln_gc_add] *)
Definition gc_add (g : gc) (x : N) : gc :=
  let g := rec_set g x item_new in mkGc (g_items g ++ [x]) (g_others g) (g_proc g) (g_rec g).

Definition known (g : gc) (x : N) : bool := elem x (g_items g) || elem x (g_others g).

(** src/mln_gc.c:105-108: [mln_gc_suspect]; [None] is the use of a NULL item. *)
Definition gc_suspect (g : gc) (x : N) : option gc :=
  if known g x then let r := g_rec g x in Some (rec_set g x (mkItem true (credit r) (inc r) (visited r))) else None.

(** src/mln_gc.c:125-138: [mln_gc_collect_add] *)
Definition collect_add (g : gc) (x : N) : option gc :=
  if x =? 0 then Some g
  else if known g x then
    let r := g_rec g x in
    if elem x (g_proc g) then Some (rec_set g x (mkItem (suspected r) true (inc r) (visited r)))
    else Some (rec_set (with_proc g (g_proc g ++ [x])) x (mkItem (suspected r) (credit r) true (visited r)))
  else None.

Fixpoint collect_adds (g : gc) (l : list N) : option gc :=
  match l with [] => Some g | x :: l' => g <- collect_add g x ;; collect_adds g l' end.

(** src/mln_gc.c:140-152: [mln_gc_clean_add]; [false] is -1. *)
Definition clean_add (g : gc) (x : N) : option (gc * bool) :=
  if known g x then
    if elem x (g_proc g) then Some (g, false)
    else let r := g_rec g x in
         Some (rec_set (with_proc g (g_proc g ++ [x])) x (mkItem (suspected r) (credit r) true (visited r)), true)
  else None.

(** src/mln_gc.c:157-162: every item of the collector is put into the chain. *)
Fixpoint chain_all (l proc : list N) : list N :=
  match l with [] => proc | x :: l' => chain_all l' (if elem x proc then proc else proc ++ [x]) end.

(** src/mln_gc.c:167-174: one turn of the loop; the chain may grow during it. *)
Fixpoint mark_pass (fuel : nat) (members : N -> list N) (g : gc) (i : nat) (done : bool) : option (gc * bool) :=
  match fuel with
  | O => None
  | S f =>
      match nth_error (g_proc g) i with
      | None => Some (g, done)
      | Some x =>
          if (suspected (g_rec g x) && negb (credit (g_rec g x))) || visited (g_rec g x) then mark_pass f members g (S i) done
          else
            g <- collect_adds g (members x) ;;
            let r := g_rec g x in
            mark_pass f members (rec_set g x (mkItem (suspected r) (credit r) (inc r) true)) (S i) false
      end
  end.

(** src/mln_gc.c:165-175: until a turn visits nothing. *)
Fixpoint mark (fuel : nat) (members : N -> list N) (g : gc) : option gc :=
  match fuel with
  | O => None
  | S f =>
      p <- mark_pass (S (length (g_items g) + length (g_others g))) members g 0 true ;;
      let (g, done) := p : gc * bool in if done then Some g else mark f members g
  end.

(** src/mln_gc.c:177-198: which items of the chain stay in it. *)
Fixpoint pick (l : list N) (g : gc) (keep : list N) : gc * list N :=
  match l with
  | [] => (g, keep)
  | x :: l' =>
      let r := g_rec g x in
      if inc r || credit r || negb (suspected r)
      then pick l' (rec_set g x (mkItem (suspected r) false false false)) keep
      else pick l' g (keep ++ [x])
  end.

(** The member lists of all objects; the handler [clean_searcher] of
    src/mln_lang.c:7822-7871 (for objects) changes them: a member is removed if the collector
    says so. *)
Fixpoint clean_list (g : gc) (l : list N) : option (gc * list N) :=
  match l with
  | [] => Some (g, [])
  | y :: l' =>
      p <- clean_add g y ;;
      let (g, added) := p : gc * bool in
      q <- clean_list g l' ;;
      let (g, kept) := q : gc * list N in Some (g, if added then y :: kept else kept)
  end.
Definition set_members (m : N -> list N) (x : N) (l : list N) : N -> list N := fun y => if N.eqb x y then l else m y.

(** The one that follows [x] in a chain. *)
Fixpoint next_in (l : list N) (x : N) : option N :=
  match l with
  | [] => None
  | y :: l' => if N.eqb x y then hd_error l' else next_in l' x
  end.

(** src/mln_gc.c:200-212: the loop over [gc->iter]; line 202 goes on along the other
    chain. *)
Fixpoint sweep (fuel : nat) (g : gc) (m : N -> list N) (iter : option N) : option (gc * (N -> list N)) :=
  match iter with
  | None => Some (g, m)
  | Some x =>
      match fuel with
      | O => None
      | S f =>
          if visited (g_rec g x) then sweep f g m (next_in (g_items g) x)
          else
            p <- clean_list g (m x) ;;
            let (g, kept) := p : gc * list N in
            let r := g_rec g x in
            let g := rec_set g x (mkItem (suspected r) (credit r) (inc r) true) in
            sweep f g (set_members m x kept) (next_in (g_proc g) x)
      end
  end.

(** src/mln_gc.c:226-242: [mln_gc_remove], while nothing is being searched. *)
Definition gc_remove (g : gc) (x : N) : option gc :=
  if elem x (g_items g) then Some (mkGc (del x (g_items g)) (g_others g) (del x (g_proc g)) (g_rec g)) else None.
Fixpoint gc_removes (g : gc) (l : list N) : option gc :=
  match l with [] => Some g | x :: l' => g <- gc_remove g x ;; gc_removes g l' end.

(** src/mln_gc.c:213-223: items left are freed; [releases] are the objects that
    [item_freer] releases besides. The second result lists the calls of
    [item_freer]. *)
Fixpoint free_loop (fuel : nat) (releases : N -> list N) (g : gc) : option (gc * list N) :=
  match g_proc g with
  | [] => Some (g, [])
  | x :: l =>
      match fuel with
      | O => None
      | S f =>
          let g := with_proc g l in
          let r := g_rec g x in
          if inc r then free_loop f releases (rec_set g x (mkItem (suspected r) (credit r) false false))
          else
            g <- gc_removes (mkGc (del x (g_items g)) (g_others g) (g_proc g) (g_rec g)) (releases x) ;;
            p <- free_loop f releases g ;;
            let (g, out) := p : gc * list N in Some (g, x :: out)
      end
  end.

(** src/mln_gc.c:154-224: [mln_gc_collect]; [roots] are what [root_setter] passes to
    [mln_gc_collect_add]. *)
Definition gc_collect (g : gc) (members : N -> list N) (roots : list N) (releases : N -> list N)
  : option (gc * (N -> list N) * list N) :=
  let n := (length (g_items g) + length (g_others g))%nat in
  let g := with_proc g (chain_all (g_items g) (g_proc g)) in
  g <- collect_adds g roots ;;
  g <- mark (S (S n)) members g ;;
  let (g, keep) := pick (g_proc g) g [] in
  let g := with_proc g keep in
  p <- sweep (S n) g members (hd_error (g_proc g)) ;;
  let (g, m) := p : gc * (N -> list N) in
  q <- free_loop (S n) releases g ;;
  let (g, out) := q : gc * list N in Some (g, m, out).

(** src/mln_gc.c:110-123: [mln_gc_merge]: the items of [src] are appended. *)
Definition gc_merge (dest src : gc) : gc :=
  mkGc (g_items dest ++ g_items src) (g_others dest) (g_proc dest) (g_rec dest).

(** src/mln_gc.c:81-93: [mln_gc_free]; the calls of [free_handler]. *)
Definition gc_free (g : gc) : list N := g_items g.
