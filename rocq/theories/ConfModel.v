(** Model of src/mln_conf.c: the configuration that is read from a file.

    The lexer is that of LexModel; a text in a file is read like one in memory. The preprocessor (include, define and conditions after a number sign) is
    not modelled: the texts have no number signs. Memory allocation succeeds. The trees of domains and of commands are those of RbModel, kept as the
    names in the order of insertion: a search builds the tree. The messages are not modelled, nor the handler for other processes. *)
Require Import List Arith NArith ZArith Bool Ascii String.
Require Import Verif.Base Verif.ChainModel Verif.RbModel Verif.StrModel Verif.HttpModel Verif.LexModel Verif.ExprModel.
Import List ListNotations.
Open Scope list_scope.
Open Scope N_scope.

Local Notation bytes := LexModel.bytes.
(** src/mln_conf.c:25-30 default_domain, conf_keywords *)
Definition main : bytes := text "main".
Definition conf_keywords : list bytes := map text ["on"; "off"]%string.
(** src/mln_conf.c:34-45: the tokens of the hooks *)
Definition T_str (s : bytes) : token := TTag 0 s.
Definition T_char (s : bytes) : token := TTag 1 s.
Definition T_comment : token := TTag 2 [].

(** src/mln_conf.c:132-181 mln_get_char: what follows a backslash. *)
Definition conf_escape (n : N) : option N := if n =? 101 then Some 27 else escape n.
(** src/mln_conf.c:115-130 mln_conf_lex_sglq_handler; a character that is negative is not ASCII. *)
Definition char_hook (l : bytes) : lexed :=
  match l with
  | [] => LErr
  | c :: r =>
      if (127 <? c) || (c =? 39) then LErr
      else
        match (if c =? 92 then match r with [] => None | n :: r => v <- conf_escape n ;; Some (v, r) end else Some (c, r)) with
        | None => LErr
        | Some (v, r) => match r with [] => LErr | d :: r => if d =? 39 then LTok (T_char [v]) (Some r) else LErr end
        end
  end.
(** src/mln_conf.c:183-197 mln_conf_lex_dblq_handler *)
Fixpoint conf_quoted (l : bytes) : option (bytes * bytes) :=
  match l with
  | [] => None
  | c :: r =>
      if (c =? ERR) || (c =? EOF) then None
      else if c =? 34 then Some ([], r)
      else if c =? 92 then match r with [] => None | n :: r => v <- conf_escape n ;; x <- conf_quoted r ;; Some (v :: fst x, snd x) end
      else x <- conf_quoted r ;; Some (c :: fst x, snd x)
  end.
Definition str_hook (l : bytes) : lexed := match conf_quoted l with None => LErr | Some (s, r) => LTok (T_str s) (Some r) end.
(** src/mln_conf.c:202-227: what is left behind a comment that started with a slash and a star. After a star, one more character is read and thrown
    away, unless it is the slash. [None]: an error. *)
Fixpoint block_comment (l : bytes) : option lx :=
  match l with
  | [] => Some None
  | c :: r =>
      if c =? ERR then None
      else if c =? EOF then Some (Some r)
      else if c =? 42 then
        match r with
        | [] => Some None
        | d :: r =>
            if d =? ERR then None
            else if d =? EOF then Some (Some r)
            else if d =? 47 then Some (Some r)
            else block_comment r
        end
      else block_comment r
  end.
(** src/mln_conf.c:228-242: a comment to the end of the line *)
Fixpoint line_comment (l : bytes) : option lx :=
  match l with
  | [] => Some None
  | c :: r => if c =? ERR then None else if c =? EOF then Some (Some r) else if c =? 10 then Some (Some l) else line_comment r
  end.
(** src/mln_conf.c:199-248 mln_conf_lex_slash_handler; at the end of the text the input is left. *)
Definition slash_hook (l : bytes) : lexed :=
  match l with
  | [] => LTok (TSpec 47) None
  | c :: r =>
      if c =? ERR then LErr
      else if c =? EOF then LTok (TSpec 47) (Some r)
      else if c =? 42 then match block_comment r with None => LErr | Some l => LTok T_comment l end
      else if c =? 47 then match line_comment r with None => LErr | Some l => LTok T_comment l end
      else LTok (TSpec 47) (Some (c :: r))
  end.
(** src/mln_conf.c:361-365 mln_conf_init *)
Definition conf_hooks : hooks := fun c => if c =? 34 then Some str_hook else if c =? 39 then Some char_hook else if c =? 47 then Some slash_hook else None.

(** ** Reading *)
Inductive result (A : Type) := NoFuel | Undef | Failed | Got (a : A).
Arguments NoFuel {A}. Arguments Undef {A}. Arguments Failed {A}. Arguments Got {A}.
Definition andthen {A B} (r : result A) (f : A -> result B) : result B :=
  match r with NoFuel => NoFuel | Undef => Undef | Failed => Failed | Got a => f a end.
Definition is_comment (t : token) : bool := match t with TTag 2 [] => true | _ => false end.

(** src/mln_conf.c:250-302 mln_conf_token: comments are skipped; a minus is put in front of the number that follows. *)
Fixpoint conf_token (fuel : nat) (minus : bool) (l : lx) : result (token * lx) :=
  match fuel with
  | O => NoFuel
  | S fuel =>
      match lex_token conf_keywords conf_hooks l with
      | LErr => Failed
      | LTok t l =>
          if is_comment t then if minus then Failed else conf_token fuel minus l
          else if is_spec 45 t then if minus then Failed else conf_token fuel true l
          else if minus then
            match t with
            | TDec s => Got (TDec (45 :: s), l)
            | TReal s => Got (TReal (45 :: s), l)
            | _ => Failed
            end
          else Got (t, l)
      end
  end.

(** include/mln_conf.h:32-50; [IFloat neg n d] is the number n / 10 ^ d, or its negation; it is not rounded. *)
Inductive item := IStr (s : bytes) | IChar (c : N) | IBool (b : bool) | IInt (z : Z) | IFloat (neg : bool) (n d : N).
Definition sign (s : bytes) : bool * bytes := match s with c :: r => if c =? 45 then (true, r) else (false, s) | [] => (false, []) end.
(** src/mln_conf.c:609-665 mln_isvalid_item, mln_conf_item_init; atol of a number out of range is undefined. *)
Definition item_init (t : token) : result item :=
  match t with
  | TDec s =>
      let (neg, d) := sign s in
      let z := if neg then (- Z.of_N (numeral 10 d))%Z else Z.of_N (numeral 10 d) in
      if ((- 2 ^ 63 <=? z) && (z <? 2 ^ 63))%Z then Got (IInt z) else Undef
  | TReal s => let (neg, d) := sign s in let (a, b) := split_dot d in Got (IFloat neg (numeral 10 (a ++ b)) (N.of_nat (List.length b)))
  | TTag 0 s => Got (IStr s)
  | TKw 0 => Got (IBool true)
  | TKw 1 => Got (IBool false)
  | TTag 1 s => Got (IChar (hd 0 s))
  | _ => Failed
  end.
(** src/mln_conf.c:718-756 mln_conf_item_recursive: the items up to the semicolon; they are looked at from the last to the first. *)
Fixpoint items (fuel : nat) (t : token) (l : lx) : result (list item * lx) :=
  match fuel with
  | O => NoFuel
  | S fuel =>
      match t with
      | TEof => Failed
      | _ =>
          if is_spec 59 t then Got ([], l)
          else
            andthen (conf_token fuel false l) (fun x =>
            andthen (items fuel (fst x) (snd x)) (fun y =>
            andthen (item_init t) (fun i => Got (i :: fst y, snd y))))
      end
  end.

(** A command with its items; a domain with its commands, in the order of insertion; the domains, in the order of insertion. *)
Definition command : Type := bytes * list item.
Definition domain : Type := bytes * list command.
Definition conf := list domain.
Definition name_of (cf : conf) (cur : nat) : bytes := fst (nth cur cf (main, [])).
(** src/mln_conf.c:572-592 mln_conf_cmd_insert *)
Fixpoint add_command (cf : conf) (cur : nat) (c : command) : conf :=
  match cf, cur with
  | [], _ => []
  | d :: cf, O => (fst d, snd d ++ [c]) :: cf
  | d :: cf, S cur => d :: add_command cf cur c
  end.
Definition same (a b : bytes) : bool := Z.eqb (mstrcmp (mkS 1 a) (mkS 2 b)) 0.

(** src/mln_conf.c:758-833 _mln_conf_load into the domain number [cur] *)
Fixpoint load_loop (fuel : nat) (cf : conf) (cur : nat) (l : lx) : result (conf * lx) :=
  match fuel with
  | O => NoFuel
  | S fuel =>
      andthen (conf_token fuel false l) (fun x =>
      match fst x with
      | TEof => Got (cf, snd x)
      | TSpec c => if c =? 125 then if same (name_of cf cur) main then Failed else Got (cf, snd x) else Failed
      | TId s =>
          andthen (conf_token fuel false (snd x)) (fun y =>
          if is_spec 123 (fst y) then
            if same (name_of cf cur) main
            then andthen (load_loop fuel (cf ++ [(s, [])]) (List.length cf) (snd y)) (fun z => load_loop fuel (fst z) cur (snd z))
            else Failed
          else andthen (items fuel (fst y) (snd y)) (fun z => load_loop fuel (add_command cf cur (s, fst z)) cur (snd z)))
      | _ => Failed
      end)
  end.
(** src/mln_conf.c:306-393 mln_conf_init, 835-869 mln_conf_load, when there is no configuration yet; [None] is a file that is not there. *)
Definition load (file : option bytes) : result conf :=
  match file with
  | None => Got [(main, [])]
  | Some l => andthen (load_loop (List.length l + 4) [(main, [])] 0 (Some l)) (fun x => Got (fst x))
  end.

(** src/mln_conf.c:835-869, 871-875 and 921-930 mln_conf_load, mln_conf_free, mln_conf_reload: the configuration that the program has, if any, the value
    that is returned, and how many of the reload handlers are called; [hooks] are the values that they return. *)
Fixpoint run_hooks (hooks : list Z) : Z * nat :=
  match hooks with
  | [] => (0%Z, O)
  | h :: r => if (h <? 0)%Z then ((-1)%Z, 1%nat) else let x := run_hooks r in (fst x, S (snd x))
  end.
Definition conf_load (file : option bytes) (g : option conf) : result (Z * option conf) :=
  match g with
  | Some _ => Got (0%Z, g)
  | None => match load file with NoFuel => NoFuel | Undef => Undef | Failed => Got ((-1)%Z, None) | Got cf => Got (0%Z, Some cf) end
  end.
Definition conf_reload (file : option bytes) (hooks : list Z) (g : option conf) : result (Z * nat * option conf) :=
  andthen (conf_load file None) (fun x => Got (run_hooks hooks, snd x)).

(** ** Looking up *)
Definition asciib (s : bytes) : bool := forallb (fun c => c <? 128) s.
(** The names are ASCII: [None] for others, for which the comparison is no order (StrProps). *)
Definition aname := { s : bytes | asciib s = true }.
Definition to_name (s : bytes) : option aname := match bool_dec (asciib s) true with left p => Some (exist _ s p) | right _ => None end.
(** src/mln_conf.c:463-467 mln_conf_domain_cmp, 554-558 mln_conf_cmd_cmp *)
Definition name_cmp (a b : aname) : Z := mstrcmp (mkS 1 (proj1_sig a)) (mkS 2 (proj1_sig b)).
Definition no_tree : rbtree aname :=
  mkT (mkM (fun _ => 0) (fun _ => 0) (fun _ => 0) (fun _ => false) 0) (fun _ => exist _ [] eq_refl) 0 (fun _ => None) None None None 0 true.
Fixpoint inserts {A} (n : N) (l : list (bytes * A)) : option (list (rop aname)) :=
  match l with [] => Some [] | x :: r => k <- to_name (fst x) ;; o <- inserts (n + 1) r ;; Some (RInsert n k :: o) end.
(** The answer to a call, after all these were inserted. [None]: undefined behaviour. *)
Definition ask {A} (l : list (bytes * A)) (o : rop aname) : option rout :=
  i <- inserts 1 l ;; x <- r_run name_cmp (rb_new no_tree) (i ++ [o]) ;; Some (last (snd x) ONone).
(** src/mln_conf.c:469-478 mln_conf_domain_search, 560-570 mln_conf_cmd_search *)
Definition lookup {A} (l : list (bytes * A)) (k : bytes) : option (option A) :=
  n <- to_name k ;; x <- ask l (RSearch n) ;;
  match x with ONode a => Some (if a =? 0 then None else option_map snd (nth_error l (N.to_nat a - 1))) | _ => None end.
(** src/mln_conf.c:667-670 mln_conf_item_search *)
Definition item_search (c : list item) (index : N) : option item :=
  if (index =? 0) || (N.of_nat (List.length c) <? index) then None else nth_error c (N.to_nat (index - 1)).
(** src/mln_conf.c:939-943 mln_conf_cmd_num *)
Definition cmd_num (cf : conf) (d : bytes) : option N :=
  x <- lookup cf d ;; match x with None => Some 0 | Some cs => y <- ask cs RCount ;; match y with ONum n => Some n | _ => None end end.
(** src/mln_conf.c:950-966 mln_conf_cmds: the commands in the order in which the tree is iterated *)
Definition cmds (cf : conf) (d : bytes) : option (list command) :=
  x <- lookup cf d ;;
  match x with
  | None => Some []
  | Some cs => y <- ask cs (RIterate (fun _ => []) (fun _ => false)) ;;
               match y with ONodes ns _ => Some (flat_map (fun a => match nth_error cs (N.to_nat a - 1) with Some c => [c] | None => [] end) ns) | _ => None end
  end.
