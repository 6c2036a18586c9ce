(** * What a format says *)
Require Import List NArith ZArith.
Require Import Verif.Base Verif.JsonNumModel Verif.JsonModel Verif.JsonSpec Verif.JsonObjModel Verif.JsonObjSpec Verif.JgenModel.
Import ListNotations.
Open Scope N_scope.

(** The letters of the manual: what each stands for, and the argument that it takes. *)
Inductive letter : N -> list arg -> json -> Prop :=
| l_true : letter 116 [] JTrue
| l_false : letter 102 [] JFalse
| l_null : letter 110 [] JNull
| l_doc v : letter 106 [ADoc v] v
| l_int32 z : letter 100 [AInt32 z] (JNum (z2d z))
| l_int64 z : letter 68 [AInt64 z] (JNum (z2d z))
| l_uint32 z : letter 117 [AUint32 z] (JNum (z2d z))
| l_uint64 z : letter 85 [AUint64 z] (JNum (z2d z))
| l_real d : letter 70 [AReal d] (JNum d)
| l_text s : letter 115 [AText s] (JStr s)
| l_string s : letter 83 [AString s] (JStr s)
| l_call v : letter 99 [ACall (Some v)] v.
(** A key is one of s, S and c, and stands for a string. *)
Definition key_letter (c : N) (a : list arg) (k : list N) : Prop := In c [115; 83; 99] /\ letter c a (JStr k).

(** [says v t a]: the format [t] with the arguments [a] stands for [v]. [members m0 m t a] and [elements l0 l t a]: what stands behind the opening
    bracket, the closing one included, makes [m] of [m0]. [lax] lets a comma stand before the closing bracket. *)
Section Says.
Variable lax : bool.
Inductive says : json -> list N -> list arg -> Prop :=
| s_letter c a v : letter c a v -> says v [c] a
| s_obj m t a : object [] m t a -> says (JObj m) (123 :: t) a
| s_arr l t a : array [] l t a -> says (JArr l) (91 :: t) a
with object : list (list N * json) -> list (list N * json) -> list N -> list arg -> Prop :=
| o_empty m0 : object m0 m0 [125] []
| o_members m0 m t a : members m0 m t a -> object m0 m t a
with members : list (list N * json) -> list (list N * json) -> list N -> list arg -> Prop :=
| m_last m0 c ka k v t a : key_letter c ka k -> says v t a -> members m0 (put k v m0) (c :: 58 :: t ++ [125]) (ka ++ a)
| m_comma m0 c ka k v t a : lax = true -> key_letter c ka k -> says v t a -> members m0 (put k v m0) (c :: 58 :: t ++ [44; 125]) (ka ++ a)
| m_more m0 c ka k v t a m t' a' : key_letter c ka k -> says v t a -> members (put k v m0) m t' a' -> members m0 m (c :: 58 :: t ++ 44 :: t') (ka ++ a ++ a')
with array : list json -> list json -> list N -> list arg -> Prop :=
| a_empty l0 : array l0 l0 [93] []
| a_elements l0 l t a : elements l0 l t a -> array l0 l t a
with elements : list json -> list json -> list N -> list arg -> Prop :=
| e_last l0 v t a : says v t a -> elements l0 (l0 ++ [v]) (t ++ [93]) a
| e_comma l0 v t a : lax = true -> says v t a -> elements l0 (l0 ++ [v]) (t ++ [44; 93]) a
| e_more l0 v t a l t' a' : says v t a -> elements (l0 ++ [v]) l t' a' -> elements l0 l (t ++ 44 :: t') (a ++ a').
(** A document that is there is added to, one that is not is made. *)
Inductive adds : json -> json -> list N -> list arg -> Prop :=
| add_new_obj m t a : object [] m t a -> adds JNone (JObj m) (123 :: t) a
| add_new_arr l t a : array [] l t a -> adds JNone (JArr l) (91 :: t) a
| add_obj m0 m t a : object m0 m t a -> adds (JObj m0) (JObj m) (123 :: t) a
| add_arr l0 l t a : array l0 l t a -> adds (JArr l0) (JArr l) (91 :: t) a.
End Says.
