(** The distinguished encoding of trees of elements, after X.690, for tag numbers
    below 32 written in one byte, and what the decoder is to show of it. *)
Require Import List NArith ZArith Bool.
Import ListNotations.
Require Import Verif.EndianSpec Verif.Asn1Model.
Local Open Scope N_scope.

(** An element: class 0 to 3, tag number, and either bytes or elements. *)
Inductive elem :=
  | Prim (cls idn : N) (content : list N)
  | Cons (cls idn : N) (kids : list elem).

(** The digits of a number in base 256, most significant first, none leading. *)
Fixpoint digits256 (fuel : nat) (n : N) : list N :=
  match fuel with
  | O => []
  | S f => if n =? 0 then [] else digits256 f (n / 256) ++ [n mod 256]
  end.

(** Length octets: one byte below 128, otherwise the number of digits with the top
    bit set, then the digits. *)
Definition length_octets (n : N) : list N :=
  if n <? 128 then [n]
  else let d := digits256 8 n in (128 + N.of_nat (length d)) :: d.

Definition tlv (cls : N) (con : bool) (idn : N) (content : list N) : list N :=
  (cls * 64 + (if con then 32 else 0) + idn) ::
  length_octets (N.of_nat (length content)) ++ content.

Fixpoint der (e : elem) : list N :=
  match e with
  | Prim c i content => tlv c false i content
  | Cons c i kids => tlv c true i (flat_map der kids)
  end.

(** What is decoded: each node with the bytes it occupies; the content of a
    primitive element is one further node without an identifier. *)
Fixpoint view (e : elem) : dres :=
  match e with
  | Prim c i content => DRes (der e) c false i [DRes content 0 false ID_NONE []]
  | Cons c i kids => DRes (der e) c true i (map view kids)
  end.

(** Classes below 4, tag numbers below 32, content made of bytes. *)
Inductive wf : elem -> Prop :=
  | wf_prim c i content : c < 4 -> i < 32 -> Forall (fun b => b < 256) content -> wf (Prim c i content)
  | wf_cons c i kids : c < 4 -> i < 32 -> Forall wf kids -> wf (Cons c i kids).

(** Building an element with the encoder: a fresh result with class and identifier
    set, and for a constructed element the results of its parts merged into one
    before it is wrapped. *)
Fixpoint build (e : elem) : option enres :=
  match e with
  | Prim c i content => encode_octetstring (ident_set (class_set en_init c) i) content
  | Cons c i kids =>
      match (fix go (ks : list elem) (acc : enres) : option enres :=
               match ks with
               | [] => Some acc
               | k :: ks' => match build k with Some r => go ks' (encode_merge acc r) | None => None end
               end) kids en_init with
      | Some r => encode_sequence (ident_set (class_set r c) i)
      | None => None
      end
  end.

(** The bytes a decoded node occupies. *)
Definition code_of (r : dres) : list N := let '(DRes c _ _ _ _) := r in c.

(** Length octets that say [n], minimal or not. *)
Definition says (lo : list N) (n : N) : Prop :=
  (lo = [n] /\ n < 128) \/
  exists d, lo = (128 + N.of_nat (length d)) :: d /\ be_value d = n.

(** A decoded tree lies over its bytes without gap or overlap: the bytes of a node
    are a tag, from which class, form and identifier are read, length octets that
    say how many bytes follow, and the bytes of its contents, one after the other. *)
Inductive tiles : dres -> Prop :=
  | tiles_prim tag lo content :
      (tag / 32) mod 2 = 0 -> says lo (N.of_nat (length content)) ->
      tiles (DRes (tag :: lo ++ content) (tag / 64) false (tag mod 32) [DRes content 0 false ID_NONE []])
  | tiles_cons tag lo kids :
      (tag / 32) mod 2 = 1 -> says lo (N.of_nat (length (flat_map code_of kids))) ->
      Forall tiles kids ->
      tiles (DRes (tag :: lo ++ flat_map code_of kids) (tag / 64) true (tag mod 32) kids).

(** A string that is one encoded element. *)
Definition is_tlv (s : list N) : Prop :=
  exists tag content, s = tag :: length_octets (N.of_nat (length content)) ++ content.

(** What an encoder holds: elements, and their total size. *)
Definition holds_elements (r : enres) : Prop :=
  esize r = N.of_nat (length (concat (econts r))) /\ Forall is_tlv (econts r).

(** The operations of the encoder. *)
Inductive aop :=
  | OBool (v : N) | OInt (l : list N) | OBits (bits : list N) (nbits : N) | OOctets (l : list N)
  | ONull | OOid (l : list N) | OUtf8 (l : list N) | OPrintable (l : list N) | OT61 (l : list N)
  | OIa5 (l : list N) | OUtcTime (t : Z) | OGenTime (t : Z) | OSequence | OSet | OSetOf
  | OClass (c : N) | OStruct (b : bool) | OIdent (i : N) | OMerge (src : enres)
  | OImplicit (ident : N) (i : nat) | OTrans.

Definition astep (r : enres) (o : aop) : option enres :=
  match o with
  | OBool v => encode_boolean r v
  | OInt l => encode_integer r l
  | OBits bits n => encode_bitstring r bits n
  | OOctets l => encode_octetstring r l
  | ONull => encode_null r
  | OOid l => encode_object_identifier r l
  | OUtf8 l => encode_utf8string r l
  | OPrintable l => option_map snd (encode_printablestring r l)
  | OT61 l => encode_t61string r l
  | OIa5 l => encode_ia5string r l
  | OUtcTime t => encode_utctime r t
  | OGenTime t => encode_generalized_time r t
  | OSequence => encode_sequence r
  | OSet => encode_set r
  | OSetOf => encode_setof r
  | OClass c => Some (class_set r c)
  | OStruct b => Some (if b then struct_set r else struct_reset r)
  | OIdent i => Some (ident_set r i)
  | OMerge src => Some (encode_merge r src)
  | OImplicit ident i => option_map snd (encode_implicit r ident i)
  | OTrans => Some (snd (trans_chain_once r))
  end.

Fixpoint arun (r : enres) (ops : list aop) : option enres :=
  match ops with
  | [] => Some r
  | o :: ops' => match astep r o with Some r' => arun r' ops' | None => None end
  end.

(** The caller's side: enough bytes for the bits announced, times from 1970 on, and
    only encoders in order are merged. *)
Definition aop_ok (o : aop) : Prop :=
  match o with
  | OBits bits n => n <= 8 * N.of_nat (length bits)
  | OUtcTime t | OGenTime t => (0 <= t)%Z
  | OMerge src => holds_elements src
  | _ => True
  end.

(** A bound on the bytes an operation adds. *)
Definition aop_cost (o : aop) : N :=
  match o with
  | OInt l | OBits l _ | OOctets l | OOid l | OUtf8 l | OPrintable l | OT61 l | OIa5 l => N.of_nat (length l) + 40
  | OMerge src => esize src
  | _ => 40
  end.
Definition total_cost (ops : list aop) : N := fold_right (fun o s => aop_cost o + s) 0 ops.

(** Bit number [i] of a bit string, the first bit being the highest of the first byte. *)
Definition bit_at (l : list N) (i : N) : bool := N.testbit (nth (N.to_nat (i / 8)) l 0) (7 - i mod 8).

(** The tag order that X.690 asks of the elements of a SET: by class, then number. *)
Definition tag_key (s : list N) : N := let t := nth 0 s 0 in t / 64 * 32 + t mod 32.

(** The universal tag number and the content of the operations that add a primitive
    element. *)
Definition primitive (o : aop) : option (N * list N) :=
  match o with
  | OBool v => Some (1, [v])
  | OInt l => Some (2, l)
  | OOctets l => Some (4, l)
  | ONull => Some (5, [])
  | OOid l => Some (6, l)
  | OUtf8 l => Some (12, l)
  | OPrintable l => if forallb (fun c => (32 <=? c) && (c <=? 126)) l then Some (19, l) else None
  | OT61 l => Some (20, l)
  | OIa5 l => Some (22, l)
  | _ => None
  end.
(** The identifier in force: the one set by the caller, or the universal one. *)
Definition ident_of (r : enres) (universal : N) : N :=
  if eidn r =? ID_NONE then universal else eidn r.
