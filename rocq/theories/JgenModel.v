(** * mln_json_generate (src/mln_json.c)

    A format is the bytes before its null byte. Arguments are typed values; taking one of another type than the format asks for is undefined.
    Allocations succeed. A callback gives a value, or fails and gives none. Members are searched as in [JsonModel]. *)
Require Import List Arith NArith ZArith Bool.
Require Import Verif.Base Verif.JsonNumModel Verif.JsonModel.
Import ListNotations.
Open Scope N_scope.

(** What may be given behind the format; a text is the bytes before its null byte. *)
Inductive arg := AInt32 (z : Z) | AInt64 (z : Z) | AUint32 (z : Z) | AUint64 (z : Z) | AReal (d : dbl) | AText (s : list N) | AString (s : list N) | ADoc (v : json) | ACall (r : option json).
(** A value and the arguments that are left; [Fails] is goto err; [Wrong] is undefined. *)
Inductive got := Val (v : json) (rest : list arg) | Fails | Wrong.
(** src/mln_json.c:1179-1253 and 1312-1390, the cases of one letter *)
Definition leaf (c : N) (args : list arg) : got :=
  if c =? 116 then Val JTrue args
  else if c =? 102 then Val JFalse args
  else if c =? 110 then Val JNull args
  else if c =? 106 then match args with ADoc v :: r => Val v r | _ => Wrong end
  else if c =? 100 then match args with AInt32 z :: r => Val (JNum (z2d z)) r | _ => Wrong end
  else if c =? 68 then match args with AInt64 z :: r => Val (JNum (z2d z)) r | _ => Wrong end
  else if c =? 117 then match args with AUint32 z :: r => Val (JNum (z2d z)) r | _ => Wrong end
  else if c =? 85 then match args with AUint64 z :: r => Val (JNum (z2d z)) r | _ => Wrong end
  else if c =? 70 then match args with AReal d :: r => Val (JNum d) r | _ => Wrong end
  else if c =? 115 then match args with AText s :: r => Val (JStr s) r | _ => Wrong end
  else if c =? 83 then match args with AString s :: r => Val (JStr s) r | _ => Wrong end
  else if c =? 99 then match args with ACall (Some v) :: r => Val v r | ACall None :: _ => Fails | _ => Wrong end
  else Fails.
(** src/mln_json.c:1145-1173 the key *)
Definition key (c : N) (args : list arg) : got :=
  if c =? 115 then match args with AText s :: r => Val (JStr s) r | _ => Wrong end
  else if c =? 83 then match args with AString s :: r => Val (JStr s) r | _ => Wrong end
  else if c =? 99 then match args with ACall (Some v) :: r => Val v r | ACall None :: _ => Fails | _ => Wrong end
  else Fails.
(** The documents that were given with j among the arguments: the values were moved, and are destroyed with the value that holds them. *)
Definition docs (args : list arg) : list json := concat (map (fun x => match x with ADoc v => [v] | _ => [] end) args).

Section Gen.
Variable look : list (list N) -> list N -> option nat.
(** Made: a value, the rest of the format and of the arguments. Failed: the arguments that are left. *)
Inductive gres := Made (j : json) (f : list N) (rest : list arg) | Failed (rest : list arg) | Undef | NoFuel.
(** src/mln_json.c:1124-1290 mln_json_obj_generate and 1292-1426 mln_json_array_generate, from [again]; [j] is the object or the array *)
Fixpoint body (fuel : nat) (j : json) (f : list N) (args : list arg) : gres :=
  match fuel with
  | O => NoFuel
  | S fuel =>
      let value (c : N) (f : list N) (args : list arg) : gres :=
        if c =? 123 then body fuel (JObj []) f args
        else if c =? 91 then body fuel (JArr []) f args
        else match leaf c args with Val v r => Made v f r | Fails => Failed args | Wrong => Undef end in
      let next (j : json) (close : N) (f : list N) (args : list arg) : gres :=
        match f with
        | [] => Failed args
        | c :: f => if c =? close then Made j f args else if c =? 44 then body fuel j f args else Failed args
        end in
      match j with
      | JObj m =>
          match f with
          | [] => Failed args
          | c :: f =>
              if c =? 125 then Made j f args
              else
                match key c args with
                | Wrong => Undef
                | Fails => Failed args
                | Val k args =>
                    match f with
                    | a :: c :: f =>
                        if negb (a =? 58) then Failed args
                        else
                          match value c f args with
                          | Made v f args => match k with JStr s => next (JObj (obj_update look m s v)) 125 f args | _ => Failed args end
                          | x => x
                          end
                    | _ => Failed args
                    end
                end
          end
      | JArr l =>
          match f with
          | [] => Failed args
          | c :: f =>
              if c =? 93 then Made j f args
              else
                match value c f args with
                | Made v f args => next (JArr (l ++ [v])) 93 f args
                | x => x
                end
          end
      | _ => Failed args
      end
  end.
(** src/mln_json.c:1105-1122 mln_json_generate, with 1137-1139 and 1305-1307: 0 and the document; or -1, the document and the documents among the
    arguments that were destroyed; the rest of the format is not looked at. *)
Inductive outcome := Zero (j : json) | Minus (j : json) (destroyed : list json) | Undefined | OutOfFuel.
Definition generate (j : json) (fmt : list N) (args : list arg) : outcome :=
  let run j f :=
    match body (S (length f)) j f args with
    | Made j _ _ => Zero j
    | Failed rest => Minus JNone (docs (firstn (length args - length rest) args))
    | Undef => Undefined
    | NoFuel => OutOfFuel
    end in
  match fmt with
  | [] => Minus j []
  | c :: f =>
      if c =? 123 then match j with JNone => run (JObj []) f | JObj _ => run j f | _ => Minus j [] end
      else if c =? 91 then match j with JNone => run (JArr []) f | JArr _ => run j f | _ => Minus j [] end
      else Minus j []
  end.
End Gen.
