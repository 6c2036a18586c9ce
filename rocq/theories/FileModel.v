(** * Sets of files (src/mln_file.c)

    A file set keeps the files it has opened in a red-black tree ordered by their
    paths and, in the order they were closed, in a chain of those nobody uses.

    Simplifications: a [mln_file_t] is an index into the list of all files ever made,
    and its tree node is that index plus one; the chain of unused files is a list,
    and a link through a file that was freed is [None]; of what [fstat] tells only the
    size is kept; the times are kept in the same way.  What the operating system
    answers is part of a call.  Temporary files are not modelled.  [None] is undefined
    behaviour, or a descriptor closed twice. *)

From Coq Require Import List Arith NArith ZArith Bool.
From Verif Require Import Base ChainModel RbModel StrModel.
Import ListNotations.
Local Open Scope N_scope.

(** include/mln_file.h:15-29: [mln_file_t]; [f_live] is false once it is freed. *)
Record file : Type := mkFile { f_path : list N; f_fd : N; f_refs : N; f_size : N; f_live : bool }.

(** include/mln_file.h:30-36: [struct mln_fileset_s]; [fds] are the descriptors the
    operating system has open for it. *)
Record fileset : Type := mkFS {
  files : list file;
  tree : rbtree (list N);
  unused : list nat;
  max_file : N;
  fds : list N
}.

(** src/mln_file.c:58-62: [mln_file_set_cmp]; the paths are two different objects. *)
Definition path_cmp (a b : list N) : Z := mstrcmp (mkS 0 a) (mkS 1 b).

(** src/mln_file.c:26-56: [mln_fileset_init].  The nodes not in the tree hold anything;
    here it is the empty path. *)
Definition fileset_init (max : N) : fileset :=
  mkFS [] (rb_new (mkT (mkM (fun _ => 0) (fun _ => 0) (fun _ => 0) (fun _ => false) 0) (fun _ => []) 0 (fun _ => None) None None None 0 false))
    [] max [].

Definition alive (fl : list file) (i : nat) : bool :=
  match nth_error fl i with Some f => f_live f | None => false end.

(** include/mln_utils.h:112-142, [MLN_CHAIN_FUNC_DEFINE]: adding at the tail writes to the old
    tail; taking out writes to both neighbours. *)
Definition chain_put (fl : list file) (l : list nat) (i : nat) : option (list nat) :=
  match rev l with
  | [] => Some [i]
  | j :: _ => if alive fl j then Some (l ++ [i]) else None
  end.
Fixpoint chain_take (fl : list file) (prev : bool) (l : list nat) (i : nat) : option (list nat) :=
  match l with
  | [] => None
  | j :: r =>
      if Nat.eqb j i then
        if prev && (match r with [] => true | k :: _ => alive fl k end) then Some r else None
      else r <- chain_take fl (alive fl j) r i ;; Some (j :: r)
  end.

(** What the operating system and the allocator answer to [mln_file_open]: no memory
    for the file or no such file; [fstat] fails, and the descriptor is closed again;
    no memory for the tree node; a descriptor and the size of the file. *)
Inductive os : Type := Missing | NoStat | NoNode (fd size : N) | Found (fd size : N).

Definition set_refs (f : file) (n : N) : file := mkFile (f_path f) (f_fd f) n (f_size f) (f_live f).

(** src/mln_file.c:75-131: the end of [mln_file_open], lines 124-128. *)
Definition reference (fs : fileset) (i : nat) : option (fileset * option nat) :=
  f <- nth_error (files fs) i ;;
  if f_live f then
    u <- (if f_refs f =? 0 then chain_take (files fs) true (unused fs) i else Some (unused fs)) ;;
    Some (mkFS (upd (files fs) i (set_refs f ((f_refs f + 1) mod 2 ^ 64))) (tree fs) u (max_file fs) (fds fs), Some i)
  else None.

(** src/mln_file.c:75-131: [mln_file_open].  When there is no tree node the file is
    freed but stays in the chain. *)
Definition file_open (fs : fileset) (p : list N) (o : os) : option (fileset * option nat) :=
  a <- rb_search path_cmp (tree fs) p ;;
  if a =? 0 then
    let i := length (files fs) in
    match o with
    | Missing | NoStat => Some (fs, None)
    | NoNode fd size =>
        u <- chain_put (files fs) (unused fs) i ;;
        Some (mkFS (files fs ++ [mkFile p fd 0 size false]) (tree fs) u (max_file fs) (fds fs), None)
    | Found fd size =>
        u <- chain_put (files fs) (unused fs) i ;;
        t <- rb_insert path_cmp (tree fs) (N.of_nat i + 1) p ;;
        reference (mkFS (files fs ++ [mkFile p fd 0 size true]) t u (max_file fs) (fd :: fds fs)) i
    end
  else reference fs (N.to_nat (a - 1)).

(** The descriptors without one of them. *)
Fixpoint fd_close (l : list N) (fd : N) : option (list N) :=
  match l with
  | [] => None
  | x :: r => if x =? fd then Some r else r <- fd_close r fd ;; Some (x :: r)
  end.

(** src/mln_file.c:158-166: [mln_file_free] *)
Definition file_free (fs : fileset) (i : nat) : option fileset :=
  f <- nth_error (files fs) i ;;
  if f_live f then
    l <- fd_close (fds fs) (f_fd f) ;;
    Some (mkFS (upd (files fs) i (mkFile (f_path f) (f_fd f) (f_refs f) (f_size f) false)) (tree fs) (unused fs) (max_file fs) l)
  else None.

(** src/mln_file.c:132-156: [mln_file_close] of a file that is not temporary. *)
Definition file_close (fs : fileset) (i : nat) : option fileset :=
  f <- nth_error (files fs) i ;;
  if f_live f then
    let n := (f_refs f + 2 ^ 64 - 1) mod 2 ^ 64 in
    let fs := mkFS (upd (files fs) i (set_refs f n)) (tree fs) (unused fs) (max_file fs) (fds fs) in
    if 0 <? n then Some fs
    else
      u <- chain_put (files fs) (unused fs) i ;;
      if max_file fs <? nr_node (tree fs) then
        j <- hd_error u ;;
        u <- chain_take (files fs) true u j ;;
        t <- rb_delete (tree fs) (N.of_nat j + 1) ;;
        file_free (mkFS (files fs) t u (max_file fs) (fds fs)) j
      else Some (mkFS (files fs) (tree fs) u (max_file fs) (fds fs))
  else None.

(** src/mln_rbtree.c:72-86: the nodes in the order [mln_rbtree_reset] frees them. *)
Fixpoint released (fuel : nat) (c : heap unit) (hd tl : option N) : option (list N) :=
  match tl with
  | None => Some []
  | Some a =>
      match fuel with
      | O => None
      | S fuel' => r <- chain_del c hd tl a ;; let '(c, hd, tl) := r in l <- released fuel' c hd tl ;; Some (a :: l)
      end
  end.
Fixpoint free_all (fs : fileset) (l : list N) : option fileset :=
  match l with
  | [] => Some fs
  | a :: r => fs <- file_free fs (N.to_nat (a - 1)) ;; free_all fs r
  end.
(** src/mln_file.c:64-72: [mln_fileset_destroy] up to the memory of the set itself *)
Definition fileset_destroy (fs : fileset) : option fileset :=
  l <- released (limit (tree fs)) (chain (tree fs)) (head (tree fs)) (tail (tree fs)) ;;
  free_all fs l.

(** Calls, and what [mln_file_open] returns. *)
Inductive call : Type := Open (p : list N) (o : os) | Close (i : nat).
Definition step (fs : fileset) (c : call) : option (fileset * option nat) :=
  match c with
  | Open p o => file_open fs p o
  | Close i => fs <- file_close fs i ;; Some (fs, None)
  end.
Fixpoint run (fs : fileset) (cs : list call) : option (fileset * list (option nat)) :=
  match cs with
  | [] => Some (fs, [])
  | c :: r => x <- step fs c ;; y <- run (fst x) r ;; Some (fst y, snd x :: snd y)
  end.
