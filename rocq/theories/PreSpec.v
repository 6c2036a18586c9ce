(** * Documents with directives, and the tokens they stand for *)
Require Import List Arith NArith Bool.
Require Import Verif.Base Verif.LexModel Verif.LexSpec.
Import ListNotations.
Local Open Scope N_scope.

(** A piece is a token with its spelling. A document is a sequence of lines: pieces, directives, and conditions with one part or two. *)
Definition piece : Type := token * bytes.
Inductive doc :=
| Stop
| Piece (p : piece) (d : doc)
| Define (k : bytes) (v : list piece) (d : doc)
| Undef (k : bytes) (d : doc)
| Use (k : bytes) (d : doc)
| Cond (neg : bool) (k : bytes) (yes : doc) (no : option doc) (d : doc)
| Include (p : bytes) (d : doc).

(** How it is written. *)
Definition define_ : bytes := [35; 100; 101; 102; 105; 110; 101; 32].
Definition undef_ : bytes := [35; 117; 110; 100; 101; 102; 32].
Definition if_ : bytes := [35; 105; 102; 32].
Definition else_ : bytes := [35; 101; 108; 115; 101; 10].
Definition endif_ : bytes := [35; 101; 110; 100; 105; 102; 10].
Definition include_ : bytes := [35; 105; 110; 99; 108; 117; 100; 101; 32; 34].
Definition spaced (ps : list piece) : bytes := concat (map (fun p => 32 :: snd p) ps).
Fixpoint render (d : doc) : bytes :=
  match d with
  | Stop => []
  | Piece p d => snd p ++ [10] ++ render d
  | Define k v d => define_ ++ k ++ spaced v ++ [10] ++ render d
  | Undef k d => undef_ ++ k ++ [10] ++ render d
  | Use k d => [35] ++ k ++ [10] ++ render d
  | Cond neg k yes no d => if_ ++ (if neg then [33] else []) ++ k ++ [10] ++ render yes ++ match no with Some no => else_ ++ render no | None => [] end ++ endif_ ++ render d
  | Include p d => include_ ++ p ++ [34; 10] ++ render d
  end.

(** The macros that are defined, with their values. *)
Definition env := list (bytes * list piece).
Definition defined (k : bytes) (e : env) : Prop := In k (map fst e).
Definition without (k : bytes) (e : env) : env := filter (fun x => if list_eq_dec N.eq_dec k (fst x) then false else true) e.

Section Gives.
Variable files : bytes -> option doc.
(** What may stand in a part that is left out, where the macros are these. *)
Variable idle : env -> doc -> Prop.
(** [gives open e d r ts]: the document stands for the tokens [ts], and leaves the macros [r]; [None] is an error behind these tokens. [open] are the files
    that are being read. *)
Inductive gives : list bytes -> env -> doc -> option env -> list token -> Prop :=
| g_stop o e : gives o e Stop (Some e) []
| g_piece o e t s d r ts : gives o e d r ts -> gives o e (Piece (t, s) d) r (t :: ts)
| g_define o e k v d r ts : ~ defined k e -> gives o ((k, v) :: e) d r ts -> gives o e (Define k v d) r ts
| g_define_twice o e k v d : defined k e -> gives o e (Define k v d) None []
| g_undef o e k d r ts : gives o (without k e) d r ts -> gives o e (Undef k d) r ts
| g_use o e k v d r ts : In (k, v) e -> gives o e d r ts -> gives o e (Use k d) r (map fst v ++ ts)
| g_use_unknown o e k d : ~ defined k e -> gives o e (Use k d) None []
| g_yes o e (neg : bool) k yes no d e1 r t1 t2 : (if neg then ~ defined k e else defined k e) -> match no with Some no => idle e1 no | None => True end ->
    gives o e yes (Some e1) t1 -> gives o e1 d r t2 -> gives o e (Cond neg k yes no d) r (t1 ++ t2)
| g_yes_error o e (neg : bool) k yes no d t1 : (if neg then ~ defined k e else defined k e) -> gives o e yes None t1 -> gives o e (Cond neg k yes no d) None t1
| g_no o e (neg : bool) k yes no d e1 r t1 t2 : (if neg then defined k e else ~ defined k e) -> idle e yes ->
    gives o e no (Some e1) t1 -> gives o e1 d r t2 -> gives o e (Cond neg k yes (Some no) d) r (t1 ++ t2)
| g_no_error o e (neg : bool) k yes no d t1 : (if neg then defined k e else ~ defined k e) -> idle e yes -> gives o e no None t1 -> gives o e (Cond neg k yes (Some no) d) None t1
| g_none o e (neg : bool) k yes d r t : (if neg then defined k e else ~ defined k e) -> idle e yes -> gives o e d r t -> gives o e (Cond neg k yes None d) r t
| g_include o e p d d1 e1 r t1 t2 : files p = Some d1 -> ~ In p o -> gives (p :: o) e d1 (Some e1) t1 -> gives o e1 d r t2 -> gives o e (Include p d) r (t1 ++ t2)
| g_include_error o e p d d1 t1 : files p = Some d1 -> ~ In p o -> gives (p :: o) e d1 None t1 -> gives o e (Include p d) None t1
| g_include_loop o e p d : In p o -> gives o e (Include p d) None []
| g_include_missing o e p d : files p = None -> gives o e (Include p d) None [].
End Gives.

(** At the beginning 1 and true are defined. *)
Definition initial : env := [([49], []); ([116; 114; 117; 101], [])].

(** Names are words, or 1; macros are not named like directives. Pieces are spelled as the lexer says; the number sign is none, and no value ends with
    a backslash. Paths have no quotes. *)
Definition a_name (k : bytes) : Prop := word k \/ k = [49].
Definition directives : list bytes := [[100; 101; 102; 105; 110; 101]; [105; 110; 99; 108; 117; 100; 101]; [105; 102]; [101; 108; 115; 101]; [101; 110; 100; 105; 102]; [117; 110; 100; 101; 102]].
Definition char_token (t : token) (s : bytes) : Prop := exists c, LexModel.special c = true /\ c <> 35 /\ t = TSpec c /\ s = [c].
Definition a_piece (kw : list bytes) (p : piece) : Prop := spelling kw char_token (fst p) (snd p).
Definition a_value (kw : list bytes) (v : list piece) : Prop := Forall (a_piece kw) v /\ forall v' p, v = v' ++ [p] -> snd p <> [92].
Fixpoint formed (kw : list bytes) (d : doc) : Prop :=
  match d with
  | Stop => True
  | Piece p d => a_piece kw p /\ formed kw d
  | Define k v d => a_name k /\ a_value kw v /\ formed kw d
  | Undef k d => a_name k /\ formed kw d
  | Use k d => a_name k /\ ~ In k directives /\ formed kw d
  | Cond _ k yes no d => a_name k /\ formed kw yes /\ match no with Some no => formed kw no | None => True end /\ formed kw d
  | Include p d => p <> [] /\ ~ In 34 p /\ formed kw d
  end.

(** What may be left out without harm: no macro that is defined is undefined, none is used that is not defined, and nothing is included. *)
Fixpoint harmless (e : env) (d : doc) : Prop :=
  match d with
  | Stop => True
  | Piece _ d | Define _ _ d => harmless e d
  | Undef k d => ~ defined k e /\ harmless e d
  | Use k d => defined k e /\ harmless e d
  | Cond _ _ yes no d => harmless e yes /\ match no with Some no => harmless e no | None => True end /\ harmless e d
  | Include _ _ => False
  end.
