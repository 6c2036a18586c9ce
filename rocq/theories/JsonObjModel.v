(** Model of the object calls of src/mln_json.c on the red-black tree of RbModel.v, and of mln_json_parse.
    An object is a tree of kv nodes; a node is named by a number, the order in which the kv blocks were allocated (freed blocks are not used
    again). Allocations succeed. What mln_json_destroy does with the old key and value is not modelled. *)
Require Import List Arith NArith ZArith Bool.
Require Import Verif.Base Verif.RbModel Verif.StrModel Verif.JsonNumModel Verif.JsonModel.
Import ListNotations.
Open Scope N_scope.

Section Obj.
(** The keys of a program and the string object of each; values are of any type. *)
Variable K V : Type.
Variable str : K -> mstr.

(** src/mln_json.c:46-52 mln_json_kv_cmp *)
Definition kv_cmp (a b : K) : Z := mstrcmp (str a) (str b).

(** The tree, whose [key] is the key of each kv, the value of each kv, and the number of the next kv allocated. *)
Record obj := mkO { o_tree : rbtree K; o_val : N -> V; o_next : N }.
(** src/mln_json.c:63-79 __mln_json_obj_init *)
Definition obj_new (t0 : rbtree K) (v0 : N -> V) : obj := mkO (rb_new t0) v0 1.
Definition set_key (t : rbtree K) (a : N) (k : K) : rbtree K :=
  mkT (lnk t) (fun x => if x =? a then k else key t x) (RbModel.min t) (chain t) (head t) (tail t) (iter t) (nr_node t) (del t).
Definition set_val (f : N -> V) (a : N) (v : V) : N -> V := fun x => if x =? a then v else f x.

(** src/mln_json.c:91-124 __mln_json_obj_update *)
Definition o_update (o : obj) (k : K) (v : V) : option obj :=
  a <- rb_search kv_cmp (o_tree o) k ;;
  if a =? 0 then
    t <- rb_insert kv_cmp (o_tree o) (o_next o) k ;; Some (mkO t (set_val (o_val o) (o_next o) v) (o_next o + 1))
  else Some (mkO (set_key (o_tree o) a k) (set_val (o_val o) a v) (o_next o)).
(** src/mln_json.c:126-143 mln_json_obj_search *)
Definition o_search (o : obj) (k : K) : option (option V) :=
  a <- rb_search kv_cmp (o_tree o) k ;; Some (if a =? 0 then None else Some (o_val o a)).
(** src/mln_json.c:145-168 mln_json_obj_remove *)
Definition o_remove (o : obj) (k : K) : option obj :=
  a <- rb_search kv_cmp (o_tree o) k ;;
  if a =? 0 then Some o else t <- rb_delete (o_tree o) a ;; Some (mkO t (o_val o) (o_next o)).
(** src/mln_json.c:1427-1447 mln_json_object_iterate with a handler that answers 0 and changes nothing. *)
Definition o_iterate (o : obj) : option (obj * list (list N * V)) :=
  r <- rb_iterate (fun _ => []) (fun _ => false) (o_tree o) ;;
  let '(t, l, _) := r in Some (mkO t (o_val o) (o_next o), map (fun a => (s_bytes (str (key t a)), o_val o a)) l).

Inductive jop := JUpdate (k : K) (v : V) | JSearch (k : K) | JRemove (k : K) | JIterate.
Inductive jout := JDone | JFound (v : option V) | JAll (l : list (list N * V)).
Definition j_step (o : obj) (op : jop) : option (obj * jout) :=
  match op with
  | JUpdate k v => o <- o_update o k v ;; Some (o, JDone)
  | JSearch k => r <- o_search o k ;; Some (o, JFound r)
  | JRemove k => o <- o_remove o k ;; Some (o, JDone)
  | JIterate => r <- o_iterate o ;; Some (fst r, JAll (snd r))
  end.
Fixpoint j_run (o : obj) (ops : list jop) : option (obj * list jout) :=
  match ops with
  | [] => Some (o, [])
  | op :: ops => r <- j_step o op ;; s <- j_run (fst r) ops ;; Some (fst s, snd r :: snd s)
  end.
End Obj.
Arguments kv_cmp {K}. Arguments obj_new {K V}. Arguments o_update {K V}. Arguments o_search {K V}. Arguments o_remove {K V}. Arguments o_iterate {K V}.
Arguments JUpdate {K V}. Arguments JSearch {K V}. Arguments JRemove {K V}. Arguments JIterate {K V}. Arguments JDone {V}. Arguments JFound {V}. Arguments JAll {V}.
Arguments j_step {K V}. Arguments j_run {K V}. Arguments mkO {K V}. Arguments o_tree {K V}. Arguments o_val {K V}. Arguments o_next {K V}.
Arguments set_key {K}. Arguments set_val {V}.

(** ** Paths *)
(** src/mln_json.c:1089-1102 mln_json_parse_is_index: the digits are taken from the last to the first. *)
Definition is_index (s : list N) : option N :=
  fold_right (fun c r => n <- r ;; if (c <? 48) || (57 <? c) then None else Some ((n * 10 + (c - 48)) mod 2 ^ 64)) (Some 0) s.
(** src/mln_json.c:180-186 mln_json_array_search *)
Definition arr_search (l : list json) (i : N) : option json := if N.of_nat (length l) <=? i then None else nth_error l (N.to_nat i).
Section Path.
(** The tree search, as in JsonModel.v. *)
Variable look : list (list N) -> list N -> option nat.
Definition obj_search (m : list (list N * json)) (k : list N) : option json :=
  i <- look (map fst m) k ;; option_map snd (nth_error m i).
(** src/mln_json.c:1061-1088 mln_json_parse: the value that is handed to the iterator; [None] for the answer -1. *)
Fixpoint walk (j : json) (ps : list (list N)) : option json :=
  match ps with
  | [] => Some j
  | p :: ps =>
      match j with
      | JObj m => v <- obj_search m p ;; walk v ps
      | JArr l => i <- is_index p ;; v <- arr_search l i ;; walk v ps
      | _ => None
      end
  end.
Definition path_parse (j : json) (exp : list N) : option json := ps <- slice exp [46] ;; walk j ps.
End Path.
