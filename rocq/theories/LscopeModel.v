(** Model of the scopes and the symbols of the script language: src/mln_lang.c:589-705 (scopes), 1640-1797 (symbols), 8044-8080 (their hash
    table), 1236-1259 and 1181-1194. The chains of include/mln_utils.h:112-142 are lists here, head first; a symbol that is taken from a chain
    that does not have it is a fault. A symbol is named by a number. The array of scopes is the list of those in use, the top first. What a
    symbol stands for is a variable or a set, given by its address; the count of its references is not modelled, only that the symbol gives up
    its own. *)
Require Import List Arith NArith Bool.
Require Import Verif.Base.
Import ListNotations.
Open Scope N_scope.

(** include/mln_lang.h:248-251 *)
Inductive kind := Var | Set_.
Definition thing := (kind * N)%type.
(** include/mln_lang.h:253-267 mln_lang_symbol_node_s; no thing is the pointer NULL. *)
Record node := mkN { n_name : list N; n_thing : option thing; n_layer : N; n_bucket : N }.
(** include/mln_lang.h:190-199 mln_lang_scope_s, without the place of the program it belongs to; [c_class] is M_LANG_SCOPE_TYPE_SET. *)
Record scope := mkC { c_title : option (list N); c_class : bool; c_layer : N; c_syms : list N }.
(** include/mln_lang.h:201-240 mln_lang_ctx_s: the symbols in memory, the chains of the hash table, the scopes, the symbols that wait to be used
    again and their number (of 16 bits), and the next symbol of the allocator. *)
Record ctx := mkX { nodes : N -> node; buckets : N -> list N; scopes : list scope; spare : list N; count : N; made : N }.
(** A place before the array of scopes, or no scope at all; a symbol is not in the chain; a variable is used as a set. *)
Inductive fault := Outside | Corrupt | Confused.
Inductive res (A : Type) := Ok (a : A) | Fault (f : fault).
Arguments Ok {A}. Arguments Fault {A}.
Definition rbind {A B} (r : res A) (f : A -> res B) : res B := match r with Ok a => f a | Fault e => Fault e end.

(** src/mln_lang.c:8069-8080 mln_lang_hash_get_bucket; M_LANG_SYMBOL_TABLE_LEN is 371 (include/mln_lang.h:21). *)
Definition bucket_of (name : list N) (layer : N) : N :=
  ((fold_left (fun i b => (i + b) mod 2 ^ 64) name 0 * layer) mod 2 ^ 64) mod 371.

Definition put {V} (f : N -> V) (a : N) (v : V) : N -> V := fun x => if x =? a then v else f x.
Fixpoint set_at {A} (k : nat) (x : A) (l : list A) : list A :=
  match l, k with [], _ => [] | _ :: r, O => x :: r | y :: r, S k => y :: set_at k x r end.
Definition same (a b : list N) : bool := if list_eq_dec N.eq_dec a b then true else false.

(** src/mln_lang.c:662-684 mln_lang_scope_push; M_LANG_SCOPE_LEN is 1024 (include/mln_lang.h:24). *)
Definition push (c : ctx) (t : option (list N)) (k : bool) : option ctx :=
  match scopes c with
  | [] => Some (mkX (nodes c) (buckets c) [mkC t k 1 []] (spare c) (count c) (made c))
  | s :: _ =>
      if (length (scopes c) <=? 1024)%nat
      then Some (mkX (nodes c) (buckets c) (mkC t k (c_layer s + 1) [] :: scopes c) (spare c) (count c) (made c))
      else None
  end.

(** src/mln_lang.c:1671-1694 mln_lang_symbol_node_free; M_LANG_CACHE_COUNT is 65535 (include/mln_lang.h:20). The second result is what the
    symbol gives up. [owned] tells whether the symbol knows its context. *)
Definition free_node (c : ctx) (id : N) (owned : bool) : ctx * list thing :=
  let n := nodes c id in
  let ns := put (nodes c) id (mkN (n_name n) None (n_layer n) (n_bucket n)) in
  (if owned && (count c <? 65535)
   then mkX ns (buckets c) (scopes c) (spare c ++ [id]) ((count c + 1) mod 2 ^ 16) (made c)
   else mkX ns (buckets c) (scopes c) (spare c) (count c) (made c),
   match n_thing n with Some t => [t] | None => [] end).
(** include/mln_utils.h:124-142 for the chain of a bucket, and for the chain of scope [k] from the top *)
Definition leave_bucket (c : ctx) (b id : N) : res ctx :=
  if existsb (N.eqb id) (buckets c b)
  then Ok (mkX (nodes c) (put (buckets c) b (remove N.eq_dec id (buckets c b))) (scopes c) (spare c) (count c) (made c))
  else Fault Corrupt.
Definition leave_scope (c : ctx) (k : nat) (id : N) : res ctx :=
  match nth_error (scopes c) k with
  | Some s =>
      if existsb (N.eqb id) (c_syms s)
      then Ok (mkX (nodes c) (buckets c) (set_at k (mkC (c_title s) (c_class s) (c_layer s) (remove N.eq_dec id (c_syms s))) (scopes c)) (spare c) (count c) (made c))
      else Fault Corrupt
  | None => Fault Outside
  end.
(** include/mln_utils.h:113-122 *)
Definition enter_bucket (c : ctx) (b id : N) : ctx :=
  mkX (nodes c) (put (buckets c) b (buckets c b ++ [id])) (scopes c) (spare c) (count c) (made c).
Definition enter_scope (c : ctx) (k : nat) (id : N) : res ctx :=
  match nth_error (scopes c) k with
  | Some s => Ok (mkX (nodes c) (buckets c) (set_at k (mkC (c_title s) (c_class s) (c_layer s) (c_syms s ++ [id])) (scopes c)) (spare c) (count c) (made c))
  | None => Fault Outside
  end.

(** src/mln_lang.c:686-702 mln_lang_scope_pop: its loop, over the symbols of the scope from the head. *)
Fixpoint drop_all (c : ctx) (l : list N) : res (ctx * list thing) :=
  match l with
  | [] => Ok (c, [])
  | id :: l =>
      rbind (leave_scope c 0 id) (fun c =>
      rbind (leave_bucket c (n_bucket (nodes c id)) id) (fun c =>
      let (c, a) := free_node c id true in
      rbind (drop_all c l) (fun r => Ok (fst r, a ++ snd r))))
  end.
Definition pop (c : ctx) : res (ctx * list thing) :=
  match scopes c with
  | [] => Ok (c, [])
  | s :: _ => rbind (drop_all c (c_syms s)) (fun r =>
      let c := fst r in Ok (mkX (nodes c) (buckets c) (tl (scopes c)) (spare c) (count c) (made c), snd r))
  end.

(** src/mln_lang.c:1640-1669 mln_lang_symbol_node_new but for the layer and the bucket; [m] tells whether the allocator has memory. *)
Definition new_node (c : ctx) (m : bool) : option (ctx * N) :=
  match spare c with
  | id :: r => Some (mkX (nodes c) (buckets c) (scopes c) r ((count c + (2 ^ 16 - 1)) mod 2 ^ 16) (made c), id)
  | [] => if m then Some (mkX (nodes c) (buckets c) (scopes c) (spare c) (count c) (made c + 1), made c) else None
  end.
(** src/mln_lang.c:1715-1718, 1743-1746, 1783-1786: the chain of the bucket from its tail *)
Definition find_in (c : ctx) (name : list N) (layer : N) : option N :=
  find (fun id => (n_layer (nodes c id) =? layer) && same (n_name (nodes c id)) name) (rev (buckets c (bucket_of name layer))).
(** src/mln_lang.c:1703-1728 __mln_lang_symbol_node_join with [k] = 0, 1730-1762 mln_lang_symbol_node_upper_join with [k] = 1; below the
    outermost scope the macro mln_lang_scope_in (653-660) says yes, for the difference of the pointers is negative. *)
Definition join (c : ctx) (k : nat) (name : list N) (t : thing) (m : bool) : res (ctx * option (list thing)) :=
  match new_node c m with
  | None => Ok (c, None)
  | Some (c, id) =>
      match nth_error (scopes c) k with
      | None => Fault Outside
      | Some s =>
          let b := bucket_of name (c_layer s) in
          let c := mkX (put (nodes c) id (mkN name (Some t) (c_layer s) b)) (buckets c) (scopes c) (spare c) (count c) (made c) in
          rbind
            (match find_in c name (c_layer s) with
             | None => Ok (c, [])
             | Some old =>
                 rbind (leave_bucket c (n_bucket (nodes c old)) old) (fun c =>
                 rbind (leave_scope c k old) (fun c => Ok (free_node c old true)))
             end) (fun r =>
          rbind (enter_scope (enter_bucket (fst r) b id) k id) (fun c => Ok (c, Some (snd r))))
      end
  end.

(** src/mln_lang.c:1770-1791 __mln_lang_symbol_node_search *)
Definition node_in (c : ctx) (name : list N) (s : scope) : option N := find_in c name (c_layer s).
Definition search (c : ctx) (name : list N) (local : bool) : option N :=
  match scopes c with
  | [] => None
  | s :: r =>
      match node_in c name s with
      | Some id => Some id
      | None => if local || match r with [] => true | _ => false end then None else node_in c name (last r s)
      end
  end.
(** src/mln_lang.c:1793-1797 mln_lang_symbol_node_id_search *)
Definition is_local (name : list N) : bool := match name with b :: _ => negb ((64 <? b) && (b <? 91)) | [] => true end.
Definition thing_of (c : ctx) (o : option N) : option thing := match o with Some id => n_thing (nodes c id) | None => None end.
(** src/mln_lang.c:1236-1259 mln_lang_ctx_get_class; the name of a set is never NULL. *)
Definition class (c : ctx) : res (option N) :=
  match scopes c with
  | [] => Fault Outside
  | s :: r =>
      if c_class s then
        match r with
        | [] => Fault Outside
        | u :: _ =>
            match c_title s with
            | None => Fault Outside
            | Some name =>
                match thing_of c (node_in c name u) with
                | None => Ok None
                | Some (Set_, p) => Ok (Some p)
                | Some (Var, _) => Fault Confused
                end
            end
        end
      else Ok None
  end.

(** src/mln_lang.c:1054-1125: a new context, with its outermost scope; [n0] is what the memory held. *)
Definition new (n0 : N -> node) (title : list N) : ctx := mkX n0 (fun _ => []) [mkC (Some title) false 1 []] [] 0 1.
(** What a program does: enters and leaves a scope, defines a name in its scope or in the one around it, looks for a name, and for the set whose
    scope it is in. *)
Inductive op :=
| Push (t : option (list N)) (k : bool) | Pop | Join (name : list N) (t : thing) (m : bool) | Upper (name : list N) (t : thing) (m : bool)
| Search (name : list N) (local : bool) | Ident (name : list N) | Class.
Inductive out := Done | Refused | Freed (l : list thing) | Found (t : option thing) | In_class (p : option N).
Definition step (c : ctx) (o : op) : res (ctx * out) :=
  let joined r := rbind r (fun q : ctx * option (list thing) => Ok (fst q, match snd q with Some l => Freed l | None => Refused end)) in
  match o with
  | Push t k => Ok (match push c t k with Some c => (c, Done) | None => (c, Refused) end)
  | Pop => rbind (pop c) (fun r => Ok (fst r, Freed (snd r)))
  | Join name t m => joined (join c 0 name t m)
  | Upper name t m => joined (join c 1 name t m)
  | Search name local => Ok (c, Found (thing_of c (search c name local)))
  | Ident name => Ok (c, Found (thing_of c (search c name (is_local name))))
  | Class => rbind (class c) (fun p => Ok (c, In_class p))
  end.
Fixpoint run (c : ctx) (os : list op) : res (ctx * list out) :=
  match os with
  | [] => Ok (c, [])
  | o :: os => rbind (step c o) (fun r => rbind (run (fst r) os) (fun q => Ok (fst q, snd r :: snd q)))
  end.

(** src/mln_lang.c:1163-1194 mln_lang_ctx_free: all scopes, then the spare symbols, then what the hash table still has
    (8056-8067 mln_lang_hash_free). *)
Fixpoint pop_all (fuel : nat) (c : ctx) : res (ctx * list thing) :=
  match fuel with
  | O => Ok (c, [])
  | S fuel => rbind (pop c) (fun r => rbind (pop_all fuel (fst r)) (fun q => Ok (fst q, snd r ++ snd q)))
  end.
Fixpoint free_all (c : ctx) (l : list N) : ctx * list thing :=
  match l with
  | [] => (c, [])
  | id :: l => let (c, a) := free_node c id false in let (c, b) := free_all c l in (c, a ++ b)
  end.
Definition close (c : ctx) : res (list thing) :=
  rbind (pop_all (length (scopes c)) c) (fun r =>
    let (c, a) := free_all (fst r) (spare (fst r)) in
    let (c, b) := free_all c (flat_map (fun i => rev (buckets c (N.of_nat i))) (seq 0 371)) in
    Ok (snd r ++ a ++ b)).
