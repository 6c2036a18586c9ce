(** Model of the jobs of the script language: the programs (syntax trees) they run, the cache of programs, and the names of jobs:
    src/mln_lang.c:912-1208, 1297-1345, 7591-7619. One operation after the other, as under the lock of the language. What a program does is not
    modelled; a tree is the text it was made from. *)
Require Import List Arith NArith Bool.
Require Import Verif.Base.
Import ListNotations.
Open Scope N_scope.

(** include/mln_lang.h:87-95 mln_lang_ast_cache_s: the tree (by the number of its making), the key, count of references of 63 bits, mark and time *)
Record entry := mkE { e_id : nat; e_code : list N; e_ref : N; e_expire : bool; e_time : N }.
(** What mln_lang_ctx_s says about its program: none, an entry of the cache, or a tree of its own *)
Inductive stm := NoTree | Cached (id : nat) | Own (id : nat).
Record job := mkJ { j_id : nat; j_stm : stm; j_alias : option (list N) }.
(** include/mln_lang.h:97-120 mln_lang_s: whether there is a cache, the cache, the jobs that run or wait, the tree of their names. [trees] and
    [freed] are the memory: the texts of all trees in the order of their making, and which of them are freed; [made] numbers the jobs. *)
Record lang := mkX { caching : bool; cache : list entry; jobs : list job; names : list (list N * nat); trees : list (list N); freed : list nat; made : nat }.

(** A tree or a cache entry is used or given up after it was freed; a job is used that is not there; a job ends itself while it runs *)
Inductive fault := Dangling | NoJob | Itself.
Inductive res (A : Type) := Ok (a : A) | Fault (f : fault).
Arguments Ok {A}. Arguments Fault {A}.
Definition rbind {A B} (r : res A) (f : A -> res B) : res B := match r with Ok a => f a | Fault e => Fault e end.
Definition same (a b : list N) : bool := if list_eq_dec N.eq_dec a b then true else false.

(** src/mln_lang_ast.c:3819-3822 mln_lang_ast_free *)
Definition free_tree (c : lang) (id : nat) : res lang :=
  if existsb (Nat.eqb id) (freed c) then Fault Dangling
  else Ok (mkX (caching c) (cache c) (jobs c) (names c) (trees c) (freed c ++ [id]) (made c)).
(** src/mln_lang.c:1197-1205, and 1066-1073: a reference less; with the last one the entry leaves the cache and its tree is freed. *)
Definition release (c : lang) (s : stm) : res lang :=
  match s with
  | NoTree => Ok c
  | Own id => free_tree c id
  | Cached id =>
      match find (fun e => Nat.eqb (e_id e) id) (cache c) with
      | None => Fault Dangling
      | Some e =>
          let ref := (e_ref e + (2 ^ 63 - 1)) mod 2 ^ 63 in
          if ref =? 0
          then free_tree (mkX (caching c) (filter (fun e => negb (Nat.eqb (e_id e) id)) (cache c)) (jobs c) (names c) (trees c) (freed c) (made c)) id
          else Ok (mkX (caching c) (map (fun e => if Nat.eqb (e_id e) id then mkE (e_id e) (e_code e) ref (e_expire e) (e_time e) else e) (cache c))
                       (jobs c) (names c) (trees c) (freed c) (made c))
      end
  end.

(** src/mln_lang.c:987-997, the walk of mln_lang_ast_cache_search; MLN_LANG_STM_CACHE_USEC is 30000000 (include/mln_lang.h:31). *)
Fixpoint look (l : list entry) (now : N) (key : list N) : list entry * option nat :=
  match l with
  | [] => ([], None)
  | e :: l =>
      if e_expire e then let (r, x) := look l now key in (e :: r, x)
      else if 30000000 <=? (now + (2 ^ 64 - e_time e)) mod 2 ^ 64
      then let (r, x) := look l now key in (mkE (e_id e) (e_code e) (e_ref e) true (e_time e) :: r, x)
      else if same (e_code e) key then (e :: l, Some (e_id e))
      else let (r, x) := look l now key in (e :: r, x)
  end.

(** Whether what a job is made from is the program or the name of its file *)
Inductive kind := Buf | File.
(** Where memory runs out: before the program is looked for; for the entry of the cache; behind that; for the node of the name; the signal fails *)
Inductive stage := Before | ForEntry | Behind | ForNode | ForSignal.
(** The world at one call: the time, what reading the file gave first and (for the tree) second, and whether it is a program *)
Record world := mkW { now : N; first : option (list N); second : option (list N); parses : bool }.

(** src/mln_lang.c:957-983, the key in mln_lang_ast_cache_search *)
Definition key_of (k : kind) (content : list N) (w : world) : option (list N) :=
  match k with
  | Buf => Some content
  | File => match content with
            | ch :: _ => if (ch =? 47) || (ch =? 64) then Some content else first w
            | [] => first w
            end
  end.
(** src/mln_lang_ast.c:3761-3817 mln_lang_ast_generate: the text that is parsed, if it is a program *)
Definition generate (k : kind) (content : list N) (w : world) : option (list N) :=
  if parses w then match k with Buf => Some content | File => second w end else None.
Definition new_tree (c : lang) (t : list N) : lang := mkX (caching c) (cache c) (jobs c) (names c) (trees c ++ [t]) (freed c) (made c).
Definition with_cache (c : lang) (l : list entry) : lang := mkX (caching c) l (jobs c) (names c) (trees c) (freed c) (made c).
(** src/mln_lang.c:1039-1050 in mln_lang_ctx_new, with 942-1013 mln_lang_ast_cache_search and 912-931 mln_lang_ast_cache_new *)
Definition program (c : lang) (k : kind) (content : list N) (w : world) (f : option stage) : res (lang * stm) :=
  if caching c
  then match key_of k content w with
       | None => Ok (c, NoTree)
       | Some key =>
           let (l, x) := look (cache c) (now w) key in
           let c := with_cache c l in
           match x with
           | Some id => Ok (with_cache c (map (fun e => if Nat.eqb (e_id e) id then mkE (e_id e) (e_code e) ((e_ref e + 1) mod 2 ^ 63) (e_expire e) (e_time e) else e) l), Cached id)
           | None =>
               match generate k content w with
               | None => Ok (c, NoTree)
               | Some t =>
                   let id := length (trees c) in
                   let c := new_tree c t in
                   match f with
                   | Some ForEntry => rbind (free_tree c id) (fun c => Ok (c, NoTree))
                   | _ => Ok (with_cache c (cache c ++ [mkE id key 1 false (now w)]), Cached id)
                   end
               end
           end
       end
  else match generate k content w with
       | None => Ok (c, NoTree)
       | Some t => Ok (new_tree c t, Own (length (trees c)))
       end.

(** src/mln_lang.c:1163-1208 mln_lang_ctx_free: the node that the name finds leaves the tree of names; the program is given up. *)
Definition drop_name (c : lang) (a : list N) : lang :=
  mkX (caching c) (cache c) (jobs c) (filter (fun x => negb (same (fst x) a)) (names c)) (trees c) (freed c) (made c).
Definition ctx_free (c : lang) (s : stm) (a : option (list N)) : res lang :=
  release (match a with Some a => drop_name c a | None => c end) s.
Definition taken (c : lang) (a : list N) : option nat := option_map snd (find (fun x => same (fst x) a) (names c)).
Definition is_stage (f : option stage) (s : stage) : bool :=
  match f, s with Some Before, Before | Some ForEntry, ForEntry | Some Behind, Behind | Some ForNode, ForNode | Some ForSignal, ForSignal => true | _, _ => false end.
Definition enter (c : lang) (s : stm) (a : option (list N)) : lang :=
  mkX (caching c) (cache c) (jobs c ++ [mkJ (made c) s a]) (match a with Some a => (a, made c) :: names c | None => names c end) (trees c) (freed c) (S (made c)).
(** src/mln_lang.c:1016-1161 mln_lang_ctx_new and 1297-1318 __mln_lang_job_new. A job without a program is made all the same. *)
Definition job_new (c : lang) (k : kind) (content : list N) (a : option (list N)) (w : world) (f : option stage) : res (lang * option nat) :=
  if is_stage f Before then Ok (c, None)
  else rbind (program c k content w f) (fun r =>
    let (c, s) := (r : lang * stm) in
    let refuse c a := rbind (ctx_free c s a) (fun c => Ok (c, None)) in
    if is_stage f Behind then refuse c None
    else match a with
         | None => if is_stage f ForSignal then refuse c None else Ok (enter c s None, Some (made c))
         | Some n =>
             match taken c n with
             | Some _ => refuse c a
             | None => if is_stage f ForNode || is_stage f ForSignal then refuse c a else Ok (enter c s a, Some (made c))
             end
         end).
(** src/mln_lang.c:1333-1345 __mln_lang_job_free *)
Definition job_free (c : lang) (j : nat) : res lang :=
  match find (fun x => Nat.eqb (j_id x) j) (jobs c) with
  | None => Fault NoJob
  | Some x =>
      ctx_free (mkX (caching c) (cache c) (filter (fun x => negb (Nat.eqb (j_id x) j)) (jobs c)) (names c) (trees c) (freed c) (made c)) (j_stm x) (j_alias x)
  end.
(** src/mln_lang.c:7591-7619 mln_lang_func_kill_process, in the job [j] *)
Definition kill (c : lang) (j : nat) (a : list N) : res lang :=
  if existsb (fun x => Nat.eqb (j_id x) j) (jobs c)
  then match taken c a with
       | None => Ok c
       | Some k => if Nat.eqb k j then Fault Itself else job_free c k
       end
  else Fault NoJob.
(** The text that a job runs: its tree is read. *)
Definition use (c : lang) (j : nat) : res (option (list N)) :=
  match find (fun x => Nat.eqb (j_id x) j) (jobs c) with
  | None => Fault NoJob
  | Some x =>
      match j_stm x with
      | NoTree => Ok None
      | Cached id | Own id =>
          if existsb (Nat.eqb id) (freed c) then Fault Dangling
          else match nth_error (trees c) id with Some t => Ok (Some t) | None => Fault Dangling end
      end
  end.

Inductive op :=
| Caching | New (k : kind) (content : list N) (a : option (list N)) (w : world) (f : option stage) | Free (j : nat) | Kill (j : nat) (a : list N) | Use (j : nat).
Inductive out := Done | Made (j : nat) | Refused | Ran (t : option (list N)).
(** mln_lang_cache_set (include/mln_lang.h:456) and the functions above *)
Definition step (c : lang) (o : op) : res (lang * out) :=
  match o with
  | Caching => Ok (mkX true (cache c) (jobs c) (names c) (trees c) (freed c) (made c), Done)
  | New k content a w f => rbind (job_new c k content a w f) (fun r => Ok (fst r, match snd r with Some j => Made j | None => Refused end))
  | Free j => rbind (job_free c j) (fun c => Ok (c, Done))
  | Kill j a => rbind (kill c j a) (fun c => Ok (c, Done))
  | Use j => rbind (use c j) (fun t => Ok (c, Ran t))
  end.
Fixpoint run (c : lang) (os : list op) : res (lang * list out) :=
  match os with
  | [] => Ok (c, [])
  | o :: os => rbind (step c o) (fun r => rbind (run (fst r) os) (fun q => Ok (fst q, snd r :: snd q)))
  end.
(** src/mln_lang.c:746-800 mln_lang_new *)
Definition new : lang := mkX false [] [] [] [] [] 0.
(** src/mln_lang.c:821-834 in mln_lang_free: all jobs end, then what is left of the cache is freed. *)
Fixpoint close_jobs (c : lang) (l : list job) : res lang :=
  match l with [] => Ok c | x :: l => rbind (job_free c (j_id x)) (fun c => close_jobs c l) end.
Fixpoint close_cache (c : lang) (l : list entry) : res lang :=
  match l with [] => Ok c | e :: l => rbind (free_tree c (e_id e)) (fun c => close_cache c l) end.
Definition close (c : lang) : res lang := rbind (close_jobs c (jobs c)) (fun c => close_cache c (cache c)).
