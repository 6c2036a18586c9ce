(** RFC 4648 base64, written with integer division only. *)
Require Import List NArith.
Import ListNotations.
Open Scope N_scope.

(** The character of the 6-bit value [v]. *)
Definition b64_char (v : N) : N :=
  if v <? 26 then 65 + v else if v <? 52 then 97 + (v - 26) else if v <? 62 then 48 + (v - 52)
  else if v =? 62 then 43 else 47.

Fixpoint b64_spec (l : list N) : list N :=
  match l with
  | a :: b :: c :: t =>
      let v := a * 65536 + b * 256 + c in
      [b64_char (v / 262144); b64_char (v / 4096 mod 64); b64_char (v / 64 mod 64); b64_char (v mod 64)] ++ b64_spec t
  | [a; b] =>
      let v := a * 65536 + b * 256 in
      [b64_char (v / 262144); b64_char (v / 4096 mod 64); b64_char (v / 64 mod 64); 61]
  | [a] =>
      let v := a * 65536 in
      [b64_char (v / 262144); b64_char (v / 4096 mod 64); 61; 61]
  | [] => []
  end.
