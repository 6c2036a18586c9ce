(** Model of src/mln_rbtree.c and include/mln_rbtree.h.
    Nodes are addresses; the sentinel [&t->nil] is address 0. Every field of the nodes is a map of its own (fields do not overlap).
    The prev/next links are the chain of include/mln_utils.h:112-142, modelled in ChainModel. All loops have a turn limit; reaching it is
    [None], as is a broken prev/next link. Freeing nodes is left out: a node that is not in the tree is simply not in the tree. *)
Require Import List Arith NArith ZArith Bool.
Require Import Verif.Base Verif.ChainModel.
Import ListNotations.
Open Scope N_scope.

Section Rb.
Variable K : Type.                 (* user data *)
Variable cmp : K -> K -> Z.        (* include/mln_rbtree.h:17 rbtree_cmp *)

(** include/mln_rbtree.h:36-45 the tree links of the nodes, and the root, include/mln_rbtree.h:54 *)
Record links := mkM { par : N -> N; lft : N -> N; rgt : N -> N; red : N -> bool; root : N }.

Definition set {V} (f : N -> V) (a : N) (v : V) : N -> V := fun b => if b =? a then v else f b.
Definition set_par (m : links) a v := mkM (set (par m) a v) (lft m) (rgt m) (red m) (root m).
Definition set_lft (m : links) a v := mkM (par m) (set (lft m) a v) (rgt m) (red m) (root m).
Definition set_rgt (m : links) a v := mkM (par m) (lft m) (set (rgt m) a v) (red m) (root m).
Definition set_red (m : links) a v := mkM (par m) (lft m) (rgt m) (set (red m) a v) (root m).
Definition set_root (m : links) v := mkM (par m) (lft m) (rgt m) (red m) v.

(** include/mln_rbtree.h:74-87 mln_rbtree_left_rotate *)
Definition left_rotate (m : links) (n : N) : links :=
  if rgt m n =? 0 then m
  else
    let tmp := rgt m n in
    let m := set_rgt m n (lft m tmp) in
    let m := if negb (lft m tmp =? 0) then set_par m (lft m tmp) n else m in
    let m := set_par m tmp (par m n) in
    let m := if par m n =? 0 then set_root m tmp
             else if n =? lft m (par m n) then set_lft m (par m n) tmp
             else set_rgt m (par m n) tmp in
    let m := set_lft m tmp n in
    set_par m n tmp.

(** include/mln_rbtree.h:90-103 mln_rbtree_right_rotate *)
Definition right_rotate (m : links) (n : N) : links :=
  if lft m n =? 0 then m
  else
    let tmp := lft m n in
    let m := set_lft m n (rgt m tmp) in
    let m := if negb (rgt m tmp =? 0) then set_par m (rgt m tmp) n else m in
    let m := set_par m tmp (par m n) in
    let m := if par m n =? 0 then set_root m tmp
             else if n =? rgt m (par m n) then set_rgt m (par m n) tmp
             else set_lft m (par m n) tmp in
    let m := set_rgt m tmp n in
    set_par m n tmp.

(** include/mln_rbtree.h:106-144 rbtree_insert_fixup *)
Fixpoint insert_fixup (fuel : nat) (m : links) (n : N) : option links :=
  match fuel with
  | O => None
  | S fuel' =>
      if red m (par m n) then
        if par m n =? lft m (par m (par m n)) then
          let tmp := rgt m (par m (par m n)) in
          if red m tmp then
            let m := set_red m (par m n) false in
            let m := set_red m tmp false in
            let m := set_red m (par m (par m n)) true in
            insert_fixup fuel' m (par m (par m n))
          else
            let '(m, n) := if n =? rgt m (par m n) then (left_rotate m (par m n), par m n) else (m, n) in
            let m := set_red m (par m n) false in
            let m := set_red m (par m (par m n)) true in
            let m := right_rotate m (par m (par m n)) in
            insert_fixup fuel' m n
        else
          let tmp := lft m (par m (par m n)) in
          if red m tmp then
            let m := set_red m (par m n) false in
            let m := set_red m tmp false in
            let m := set_red m (par m (par m n)) true in
            insert_fixup fuel' m (par m (par m n))
          else
            let '(m, n) := if n =? lft m (par m n) then (right_rotate m (par m n), par m n) else (m, n) in
            let m := set_red m (par m n) false in
            let m := set_red m (par m (par m n)) true in
            let m := left_rotate m (par m (par m n)) in
            insert_fixup fuel' m n
      else Some (set_red m (root m) false)
  end.

(** src/mln_rbtree.c:163-168 rbtree_minimum *)
Fixpoint minimum (fuel : nat) (m : links) (n : N) : option N :=
  match fuel with
  | O => None
  | S fuel' => if negb (lft m n =? 0) then minimum fuel' m (lft m n) else Some n
  end.

(** src/mln_rbtree.c:128-131 the climb in mln_rbtree_successor *)
Fixpoint climb (fuel : nat) (m : links) (n tmp : N) : option N :=
  match fuel with
  | O => None
  | S fuel' => if negb (tmp =? 0) && (n =? rgt m tmp) then climb fuel' m tmp (par m tmp) else Some tmp
  end.

(** src/mln_rbtree.c:123-133 mln_rbtree_successor *)
Definition successor (fuel : nat) (m : links) (n : N) : option N :=
  if negb (n =? 0) && negb (rgt m n =? 0) then minimum fuel m (rgt m n)
  else climb fuel m n (par m n).

(** src/mln_rbtree.c:171-179 rbtree_transplant *)
Definition transplant (m : links) (u v : N) : links :=
  let m := if par m u =? 0 then set_root m v
           else if u =? lft m (par m u) then set_lft m (par m u) v
           else set_rgt m (par m u) v in
  set_par m v (par m u).

(** src/mln_rbtree.c:227-233 the sibling is red; result: links and new sibling *)
Definition red_sibling_l (m : links) (n : N) : links * N :=
  let tmp := rgt m (par m n) in
  if red m tmp then
    let m := set_red m tmp false in
    let m := set_red m (par m n) true in
    let m := left_rotate m (par m n) in
    (m, rgt m (par m n))
  else (m, tmp).
(** src/mln_rbtree.c:238-243 the sibling's outer child is black *)
Definition inner_red_l (m : links) (n tmp : N) : links * N :=
  if negb (red m (rgt m tmp)) then
    let m := set_red m (lft m tmp) false in
    let m := set_red m tmp true in
    let m := right_rotate m tmp in
    (m, rgt m (par m n))
  else (m, tmp).
(** src/mln_rbtree.c:244-247 *)
Definition outer_red_l (m : links) (n tmp : N) : links :=
  let m := set_red m tmp (red m (par m n)) in
  let m := set_red m (par m n) false in
  let m := set_red m (rgt m tmp) false in
  left_rotate m (par m n).
(** src/mln_rbtree.c:250-256 the sibling is red; result: links and new sibling *)
Definition red_sibling_r (m : links) (n : N) : links * N :=
  let tmp := lft m (par m n) in
  if red m tmp then
    let m := set_red m tmp false in
    let m := set_red m (par m n) true in
    let m := right_rotate m (par m n) in
    (m, lft m (par m n))
  else (m, tmp).
(** src/mln_rbtree.c:261-266 the sibling's outer child is black *)
Definition inner_red_r (m : links) (n tmp : N) : links * N :=
  if negb (red m (lft m tmp)) then
    let m := set_red m (rgt m tmp) false in
    let m := set_red m tmp true in
    let m := left_rotate m tmp in
    (m, lft m (par m n))
  else (m, tmp).
(** src/mln_rbtree.c:267-270 *)
Definition outer_red_r (m : links) (n tmp : N) : links :=
  let m := set_red m tmp (red m (par m n)) in
  let m := set_red m (par m n) false in
  let m := set_red m (lft m tmp) false in
  right_rotate m (par m n).
(** src/mln_rbtree.c:220-275 rbtree_delete_fixup *)
Fixpoint delete_fixup (fuel : nat) (m : links) (n : N) : option links :=
  match fuel with
  | O => None
  | S fuel' =>
      if negb (n =? root m) && negb (red m n) then
        if n =? lft m (par m n) then
          let '(m, tmp) := red_sibling_l m n in
          if negb (red m (lft m tmp)) && negb (red m (rgt m tmp)) then
            delete_fixup fuel' (set_red m tmp true) (par m n)
          else
            let '(m, tmp) := inner_red_l m n tmp in
            let m := outer_red_l m n tmp in
            delete_fixup fuel' m (root m)
        else
          let '(m, tmp) := red_sibling_r m n in
          if negb (red m (rgt m tmp)) && negb (red m (lft m tmp)) then
            delete_fixup fuel' (set_red m tmp true) (par m n)
          else
            let '(m, tmp) := inner_red_r m n tmp in
            let m := outer_red_r m n tmp in
            delete_fixup fuel' m (root m)
      else Some (set_red m n false)
  end.

(** src/mln_rbtree.c:185-211 the links part of mln_rbtree_delete *)
Definition unlink (fuel : nat) (m : links) (n : N) : option links :=
  r <- (if lft m n =? 0 then
          Some (transplant m n (rgt m n), rgt m n, red m n)
        else if rgt m n =? 0 then
          Some (transplant m n (lft m n), lft m n, red m n)
        else
          y <- minimum fuel m (rgt m n) ;;
          let c := red m y in
          let x := rgt m y in
          let m := if par m y =? n then set_par m x y
                   else
                     let m := transplant m y (rgt m y) in
                     let m := set_rgt m y (rgt m n) in
                     set_par m (rgt m y) y in
          let m := transplant m n y in
          let m := set_lft m y (lft m n) in
          let m := set_par m (lft m y) y in
          let m := set_red m y (red m n) in
          Some (m, x, c)) ;;
  let '(m, x, c) := r in
  m <- (if c then Some m else delete_fixup fuel m x) ;;
  let m := set_par m n 0 in let m := set_lft m n 0 in Some (set_rgt m n 0).

(** src/mln_rbtree.c:90-97 descent of mln_rbtree_insert *)
Fixpoint descend (fuel : nat) (m : links) (key : N -> K) (d : K) (x y : N) : option N :=
  match fuel with
  | O => None
  | S fuel' =>
      if x =? 0 then Some y
      else descend fuel' m key d (if (cmp d (key x) <? 0)%Z then lft m x else rgt m x) x
  end.

(** src/mln_rbtree.c:98-103 linking a node below [y] *)
Definition attach (m : links) (key : N -> K) (n y : N) : links :=
  let m := set_par m n y in
  let m := if y =? 0 then set_root m n
           else if (cmp (key n) (key y) <? 0)%Z then set_lft m y n else set_rgt m y n in
  let m := set_rgt m n 0 in let m := set_lft m n 0 in set_red m n true.

(** src/mln_rbtree.c:112-120 mln_rbtree_search *)
Fixpoint search (fuel : nat) (m : links) (key : N -> K) (k : K) (x : N) : option N :=
  match fuel with
  | O => None
  | S fuel' =>
      if x =? 0 then Some x
      else
        let ret := cmp k (key x) in
        if (ret =? 0)%Z then Some x
        else search fuel' m key k (if (ret <? 0)%Z then lft m x else rgt m x)
  end.

(** include/mln_rbtree.h:47-61 mln_rbtree_t; the node data is in [key], the prev/next links in [chain]. *)
Record rbtree := mkT { lnk : links; key : N -> K; min : N; chain : heap unit; head : option N; tail : option N;
                       iter : option N; nr_node : N; del : bool }.

(** src/mln_rbtree.c:20-53 mln_rbtree_new *)
Definition rb_new : rbtree -> rbtree := fun t =>
  mkT (mkM (set (par (lnk t)) 0 0) (set (lft (lnk t)) 0 0) (set (rgt (lnk t)) 0 0) (set (red (lnk t)) 0 false) 0)
    (key t) 0 (chain t) None None None 0 false.

(** The turn limit: more than the number of nodes. *)
Definition limit (t : rbtree) : nat := S (S (N.to_nat (nr_node t))).

(** src/mln_rbtree.c:89-109 mln_rbtree_insert of a node [n] made by src/mln_rbtree.c:136-149 mln_rbtree_node_new with data [d]. The new
    node's links hold no defined values before. *)
Definition rb_insert (t : rbtree) (n : N) (d : K) : option rbtree :=
  let key := set (key t) n d in
  y <- descend (limit t) (lnk t) key d (root (lnk t)) 0 ;;
  m <- insert_fixup (limit t) (attach (lnk t) key n y) n ;;
  let mn := if min t =? 0 then n else if (cmp d (key (min t)) <? 0)%Z then n else min t in
  r <- chain_add (hset (chain t) n (mkC tt None None)) (head t) (tail t) n ;;
  let '(c, hd, tl) := r in
  Some (mkT m key mn c hd tl (iter t) (nr_node t + 1) (del t)).

(** src/mln_rbtree.c:182-218 mln_rbtree_delete *)
Definition rb_delete (t : rbtree) (n : N) : option rbtree :=
  mn <- (if n =? min t then successor (limit t) (lnk t) n else Some (min t)) ;;
  m <- unlink (limit t) (lnk t) n ;;
  r <- (match iter t with
        | Some i => if i =? n then c <- chain t n ;; Some (nxt c, true) else Some (iter t, del t)
        | None => Some (iter t, del t)
        end) ;;
  let '(it, dl) := r in
  r <- chain_del (chain t) (head t) (tail t) n ;;
  let '(c, hd, tl) := r in
  Some (mkT m (key t) mn c hd tl it (nr_node t - 1) dl).

(** src/mln_rbtree.c:112-120, with the turn limit *)
Definition rb_search (t : rbtree) (k : K) : option N := search (limit t) (lnk t) (key t) k (root (lnk t)).

(** src/mln_rbtree.c:72-86 mln_rbtree_reset; [fuel] bounds the number of nodes released. *)
Fixpoint release (fuel : nat) (c : heap unit) (hd tl : option N) : option (heap unit) :=
  match tl with
  | None => Some c
  | Some a =>
      match fuel with
      | O => None
      | S fuel' => r <- chain_del c hd tl a ;; let '(c, hd, tl) := r in release fuel' c hd tl
      end
  end.
Definition rb_reset (t : rbtree) : option rbtree :=
  c <- release (limit t) (chain t) (head t) (tail t) ;;
  Some (mkT (set_root (lnk t) 0) (key t) 0 c None None None 0 false).

(** src/mln_rbtree.c:283-298 mln_rbtree_iterate. The handler deletes the nodes [dels a] when it is called with node [a], and returns a
    negative value if [stop a]. Result: the nodes it was called with, and whether the iteration was completed. *)
Fixpoint del_all (t : rbtree) (l : list N) : option rbtree :=
  match l with [] => Some t | a :: l => t <- rb_delete t a ;; del_all t l end.
Fixpoint iterate_loop (fuel : nat) (dels : N -> list N) (stop : N -> bool) (t : rbtree) : option (rbtree * list N * bool) :=
  match iter t with
  | None => Some (t, [], true)
  | Some a =>
      match fuel with
      | O => None
      | S fuel' =>
          t <- del_all t (dels a) ;;
          if stop a then Some (t, [a], false)
          else
            t <- (if del t then Some (mkT (lnk t) (key t) (min t) (chain t) (head t) (tail t) (iter t) (nr_node t) false)
                  else
                    i <- iter t ;; c <- chain t i ;;
                    Some (mkT (lnk t) (key t) (min t) (chain t) (head t) (tail t) (nxt c) (nr_node t) (del t))) ;;
            r <- iterate_loop fuel' dels stop t ;;
            let '(t, l, b) := r in Some (t, a :: l, b)
      end
  end.
Definition rb_iterate (dels : N -> list N) (stop : N -> bool) (t : rbtree) : option (rbtree * list N * bool) :=
  iterate_loop (limit t) dels stop (mkT (lnk t) (key t) (min t) (chain t) (head t) (tail t) (head t) (nr_node t) (del t)).

(** Calls and answers. *)
Inductive rop := RInsert (a : N) (d : K) | RDelete (a : N) | RSearch (k : K) | RMin | RSuccessor (a : N) | RCount | RReset
  | RIterate (dels : N -> list N) (stop : N -> bool).
Inductive rout := ONone | ONode (a : N) | ONum (n : N) | ONodes (l : list N) (complete : bool).
Definition r_step (t : rbtree) (o : rop) : option (rbtree * rout) :=
  match o with
  | RInsert a d => t <- rb_insert t a d ;; Some (t, ONone)
  | RDelete a => t <- rb_delete t a ;; Some (t, ONone)
  | RSearch k => a <- rb_search t k ;; Some (t, ONode a)
  | RMin => Some (t, ONode (min t))
  | RSuccessor a => b <- successor (limit t) (lnk t) a ;; Some (t, ONode b)
  | RCount => Some (t, ONum (nr_node t))
  | RReset => t <- rb_reset t ;; Some (t, ONone)
  | RIterate dels stop => r <- rb_iterate dels stop t ;; let '(t, l, b) := r in Some (t, ONodes l b)
  end.
Fixpoint r_run (t : rbtree) (ops : list rop) : option (rbtree * list rout) :=
  match ops with
  | [] => Some (t, [])
  | o :: ops => r <- r_step t o ;; s <- r_run (fst r) ops ;; Some (fst s, snd r :: snd s)
  end.
End Rb.

Arguments lnk {K}. Arguments key {K}. Arguments min {K}. Arguments chain {K}. Arguments head {K}. Arguments tail {K}. Arguments iter {K}.
Arguments nr_node {K}. Arguments del {K}. Arguments mkT {K}. Arguments rb_new {K}. Arguments limit {K}. Arguments rb_insert {K}.
Arguments rb_delete {K}. Arguments rb_search {K}. Arguments rb_reset {K}. Arguments rb_iterate {K}. Arguments del_all {K}.
Arguments iterate_loop {K}. Arguments descend {K}. Arguments attach {K}. Arguments search {K}.
Arguments RInsert {K}. Arguments RDelete {K}. Arguments RSearch {K}. Arguments RMin {K}. Arguments RSuccessor {K}. Arguments RCount {K}.
Arguments RReset {K}. Arguments RIterate {K}. Arguments r_step {K}. Arguments r_run {K}.
