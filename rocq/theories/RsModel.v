(** * Reed-Solomon coding of blocks (src/mln_rs.c, include/mln_rs.h)

    The elements of the matrices are bytes, with the byte field given by two
    logarithm tables.

    Simplifications, besides those of [GaussModel]: the array of blocks given to
    the encoder has [n * len] bytes; [n], [k] and [len] are natural numbers, the
    products of which do not overflow; an allocation of no bytes succeeds.
    The other accessors of a result are its fields. *)

From Coq Require Import List Arith NArith Bool.
From Coq.Strings Require Import Byte.
From Verif Require Import Base GaussModel.
Import ListNotations.
Local Open Scope N_scope.

(** A number stored in a byte. *)
Definition b8 (x : N) : byte :=
  match of_N (x mod 256) with Some b => b | None => x00 end.

(** src/mln_rs.c:13-46: powers of the generator. *)
Definition gfilog : list N := [
   1; 2; 4; 8; 16; 32; 64; 128; 45; 90; 180; 69; 138; 57; 114; 228;
   229; 231; 227; 235; 251; 219; 155; 27; 54; 108; 216; 157; 23; 46; 92; 184;
   93; 186; 89; 178; 73; 146; 9; 18; 36; 72; 144; 13; 26; 52; 104; 208;
   141; 55; 110; 220; 149; 7; 14; 28; 56; 112; 224; 237; 247; 195; 171; 123;
   246; 193; 175; 115; 230; 225; 239; 243; 203; 187; 91; 182; 65; 130; 41; 82;
   164; 101; 202; 185; 95; 190; 81; 162; 105; 210; 137; 63; 126; 252; 213; 135;
   35; 70; 140; 53; 106; 212; 133; 39; 78; 156; 21; 42; 84; 168; 125; 250;
   217; 159; 19; 38; 76; 152; 29; 58; 116; 232; 253; 215; 131; 43; 86; 172;
   117; 234; 249; 223; 147; 11; 22; 44; 88; 176; 77; 154; 25; 50; 100; 200;
   189; 87; 174; 113; 226; 233; 255; 211; 139; 59; 118; 236; 245; 199; 163; 107;
   214; 129; 47; 94; 188; 85; 170; 121; 242; 201; 191; 83; 166; 97; 194; 169;
   127; 254; 209; 143; 51; 102; 204; 181; 71; 142; 49; 98; 196; 165; 103; 206;
   177; 79; 158; 17; 34; 68; 136; 61; 122; 244; 197; 167; 99; 198; 161; 111;
   222; 145; 15; 30; 60; 120; 240; 205; 183; 67; 134; 33; 66; 132; 37; 74;
   148; 5; 10; 20; 40; 80; 160; 109; 218; 153; 31; 62; 124; 248; 221; 151;
   3; 6; 12; 24; 48; 96; 192; 173; 119; 238; 241; 207; 179; 75; 150; 0].

(** src/mln_rs.c:48-81: their logarithms. *)
Definition gflog : list N := [
   255; 0; 1; 240; 2; 225; 241; 53; 3; 38; 226; 133; 242; 43; 54; 210;
   4; 195; 39; 114; 227; 106; 134; 28; 243; 140; 44; 23; 55; 118; 211; 234;
   5; 219; 196; 96; 40; 222; 115; 103; 228; 78; 107; 125; 135; 8; 29; 162;
   244; 186; 141; 180; 45; 99; 24; 49; 56; 13; 119; 153; 212; 199; 235; 91;
   6; 76; 220; 217; 197; 11; 97; 184; 41; 36; 223; 253; 116; 138; 104; 193;
   229; 86; 79; 171; 108; 165; 126; 145; 136; 34; 9; 74; 30; 32; 163; 84;
   245; 173; 187; 204; 142; 81; 181; 190; 46; 88; 100; 159; 25; 231; 50; 207;
   57; 147; 14; 67; 120; 128; 154; 248; 213; 167; 200; 63; 236; 110; 92; 176;
   7; 161; 77; 124; 221; 102; 218; 95; 198; 90; 12; 152; 98; 48; 185; 179;
   42; 209; 37; 132; 224; 52; 254; 239; 117; 233; 139; 22; 105; 27; 194; 113;
   230; 206; 87; 158; 80; 189; 172; 203; 109; 175; 166; 62; 127; 247; 146; 66;
   137; 192; 35; 252; 10; 183; 75; 216; 31; 83; 33; 73; 164; 144; 85; 170;
   246; 65; 174; 61; 188; 202; 205; 157; 143; 169; 82; 72; 182; 215; 191; 251;
   47; 178; 89; 151; 101; 94; 160; 123; 26; 112; 232; 21; 51; 238; 208; 131;
   58; 69; 148; 18; 15; 16; 68; 17; 121; 149; 129; 19; 155; 59; 249; 70;
   214; 250; 168; 71; 201; 156; 64; 60; 237; 130; 111; 20; 93; 122; 177; 150].

Definition ilog_at (i : N) : N := nth (N.to_nat i) gfilog 0.
Definition log_at (b : byte) : N := nth (N.to_nat (to_N b)) gflog 0.

(** src/mln_rs.c:83: [M_RS_GF_ADDSUB] *)
Definition gf_add (dst src : byte) : byte := b8 (N.lxor (to_N dst) (to_N src)).

(** src/mln_rs.c:84-87: [M_RS_GF_MUL] *)
Definition gf_mul (dst src : byte) : byte :=
  if (to_N dst =? 0) || (to_N src =? 0) then x00
  else b8 (ilog_at ((log_at dst + log_at src) mod 255)).

(** src/mln_rs.c:88-93: [M_RS_GF_DIV] *)
Definition gf_div (dst src : byte) : byte :=
  if (to_N dst =? 0) || (to_N src =? 0) then x00
  else b8 (ilog_at (if log_at dst <? log_at src
                    then 255 - (log_at src - log_at dst)
                    else log_at dst - log_at src)).

(** src/mln_rs.c:208: [origin[j + m] > tmp] *)
Definition gf_better (y x : byte) : bool := to_N x <? to_N y.

(** src/mln_rs.c:224: [!origin[i + m]] *)
Definition gf_tiny (x : byte) : bool := to_N x =? 0.

(** src/mln_rs.c:98-100: the highest bit of the exponent among the first [i]. *)
Fixpoint top_bit (exp : N) (i : nat) : option nat :=
  match i with
  | O => None
  | S i' => if N.testbit exp (N.of_nat i') then Some i' else top_bit exp i'
  end.

(** src/mln_rs.c:103-108: the bits [i-1 .. 0]; [mln_size_t] has 64 bits. *)
Fixpoint power_loop (save exp : N) (i : nat) (base : N) : N :=
  match i with
  | O => base
  | S i' =>
      let b := (base * base) mod 2 ^ 64 in
      power_loop save exp i'
        (if N.testbit exp (N.of_nat i') then (b * save) mod 2 ^ 64 else b)
  end.

(** src/mln_rs.c:95-110: [mln_rs_power_calc] *)
Definition power_calc (base exp : N) : N :=
  match top_bit exp 64 with
  | None => 1
  | Some i => power_loop base exp i base
  end.

(** src/mln_rs.c:270-274, 309-311: the coefficients of the parity block number
    [j], counted from zero. *)
Definition parity_row (n j : nat) : list byte :=
  map (fun k => b8 (power_calc (N.of_nat k) (N.of_nat j))) (seq 1 n).

Definition rs_mat := list (list byte).
Definition rs_mul := mat_mul byte x00 gf_add gf_mul.
Definition rs_invert := invert byte x00 x01 gf_add gf_mul gf_div gf_better gf_tiny.

(** src/mln_rs.c:253-282: [mln_rs_matrix_co_matrix] *)
Definition co_matrix (n k : nat) : rs_mat :=
  ident byte x00 x01 n ++ map (parity_row n) (seq 0 k).

(** include/mln_rs.h:24-28: [mln_rs_result_t] *)
Record rs_result : Type := mkRR {
  rr_data : list byte;
  rr_num : nat;
  rr_len : nat
}.

(** include/mln_rs.h:33-36: [mln_rs_result_get_data_by_index], what the returned
    pointer points to; [None] is NULL. *)
Definition rr_get (r : rs_result) (index : nat) : option (list byte) :=
  if Nat.leb (rr_num r) index then None
  else Some (skipn (index * (rr_len r / rr_num r)) (rr_data r)).

(** The array of [n] rows of [len] bytes as rows. *)
Fixpoint rows (n len : nat) (l : list byte) : rs_mat :=
  match n with
  | O => []
  | S n' => firstn len l :: rows n' len (skipn len l)
  end.

(** src/mln_rs.c:402-439: [mln_rs_encode]; [None] is NULL. *)
Definition rs_encode (data : list byte) (len n k : nat) : option rs_result :=
  if (Nat.eqb len 0 || Nat.eqb n 0 || Nat.eqb k 0)%bool then None
  else Some (mkRR (concat (rs_mul (co_matrix n k) (rows n len data) len))
                  (n + k) ((n + k) * len)).

(** src/mln_rs.c:298-306: the identity rows of the data blocks present among the
    first [n] pointers; [i] is the number of the next one, [r] how many remain.
    [None]: the array of pointers is read past its end. *)
Fixpoint co_data (n i r : nat) (v : list (option (list byte))) : option rs_mat :=
  match r with
  | O => Some []
  | S r' =>
      match v with
      | [] => None
      | None :: v' => co_data n (S i) r' v'
      | Some _ :: v' => m <- co_data n (S i) r' v' ;; Some (unit_row byte x00 x01 n i :: m)
      end
  end.

(** src/mln_rs.c:307-314: rows of the parity blocks until [need] were found.
    The end pointer of line 307 is [n] too far, so that a missing row is looked
    for behind the last pointer: [None]. *)
Fixpoint co_parity (n i need : nat) (v : list (option (list byte))) : option rs_mat :=
  match need with
  | O => Some []
  | S need' =>
      match v with
      | [] => None
      | None :: v' => co_parity n (S i) need v'
      | Some _ :: v' => m <- co_parity n (S i) need' v' ;; Some (parity_row n i :: m)
      end
  end.

(** src/mln_rs.c:284-328: [mln_rs_matrix_co_inverse_matrix]; the outer option is
    the undefined behaviour, the inner one NULL. *)
Definition co_inverse (v : list (option (list byte))) (n : nat) : option (option rs_mat) :=
  d <- co_data n 0 n v ;;
  p <- co_parity n 0 (n - length d) (skipn n v) ;;
  Some (snd (rs_invert n (d ++ p))).

(** [memcpy(p, block, len)]: a block that is too short is read past its end. *)
Definition read_block (len : nat) (b : list byte) : option (list byte) :=
  if Nat.leb len (length b) then Some (firstn len b) else None.

(** src/mln_rs.c:330-360: [mln_rs_matrix_data_matrix], the first [need] blocks
    present. *)
Fixpoint data_matrix (len need : nat) (v : list (option (list byte))) : option rs_mat :=
  match need with
  | O => Some []
  | S need' =>
      match v with
      | [] => Some []
      | None :: v' => data_matrix len need v'
      | Some b :: v' =>
          r <- read_block len b ;; m <- data_matrix len need' v' ;; Some (r :: m)
      end
  end.

(** src/mln_rs.c:450-466: without parity blocks all [r] remaining blocks are
    copied; a NULL one is undefined behaviour. *)
Fixpoint copy_all (len r : nat) (v : list (option (list byte))) : option (list byte) :=
  match r with
  | O => Some []
  | S r' =>
      match v with
      | Some b :: v' =>
          x <- read_block len b ;; m <- copy_all len r' v' ;; Some (x ++ m)
      | _ => None
      end
  end.

(** src/mln_rs.c:441-498: [mln_rs_decode].  [None] is undefined behaviour,
    [Some None] is NULL. *)
Definition rs_decode (v : list (option (list byte))) (len n k : nat)
  : option (option rs_result) :=
  if (Nat.eqb n 0 && Nat.eqb k 0)%bool then Some None
  else if Nat.eqb k 0 then
    d <- copy_all len n v ;; Some (Some (mkRR d n (len * n)))
  else
    c <- co_inverse v n ;;
    match c with
    | None => Some None
    | Some inv =>
        m <- data_matrix len n v ;;
        Some (Some (mkRR (concat (rs_mul inv m len)) n (n * len)))
    end.
