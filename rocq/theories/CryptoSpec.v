(** * GF(2^8) and the block ciphers of GOST R 34.12-2015 (specification).

    Written from the standard, independently of the kernels: polynomials over GF(2), the
    field GF(2^8) modulo x^8 + x^7 + x^6 + x + 1, Magma (RFC 8891) and Kuznechik (RFC 7801).
    Words are non-negative integers; the most significant byte comes first in a list. *)
From Coq Require Import ZArith Bool List.
Import ListNotations.
Local Open Scope Z_scope.

(** ** Polynomials over GF(2): bit [i] is the coefficient of x^i; the sum is [Z.lxor] *)
Fixpoint clmul_pos (a : Z) (b : positive) : Z :=
  match b with
  | xH => a
  | xO b => 2 * clmul_pos a b
  | xI b => Z.lxor a (2 * clmul_pos a b)
  end.
Definition clmul (a b : Z) : Z := match b with Zpos b => clmul_pos a b | _ => 0 end.

(** ** GF(2^8): [r] is the product of [a] and [b] when it is the remainder of the product of
    the polynomials divided by x^8 + x^7 + x^6 + x + 1 *)
Definition gf_poly : Z := 2 ^ 8 + 2 ^ 7 + 2 ^ 6 + 2 + 1.
Definition gf_product (a b r : Z) : Prop := 0 <= r < 256 /\ exists q, 0 <= q /\ clmul a b = Z.lxor (clmul gf_poly q) r.
(** the product computed: cancel the bits 14..8 of the product *)
Definition gf_mul (a b : Z) : Z :=
  fold_left (fun x i => if Z.testbit x (8 + i) then Z.lxor x (gf_poly * 2 ^ i) else x) [6; 5; 4; 3; 2; 1; 0] (clmul a b).

(** ** Words and bytes *)
(** the [n] bytes of [x], the most significant first *)
Definition bytes (n : nat) (x : Z) : list Z := map (fun j => (x / 2 ^ (8 * Z.of_nat (n - 1 - j))) mod 256) (seq 0 n).
Definition word_of (l : list Z) : Z := fold_left (fun acc b => 256 * acc + b) l 0.

(** ** Magma *)
(** the substitutions pi_0 ... pi_7 of id-tc26-gost-28147-param-Z *)
Definition magma_pi (i : nat) : list Z :=
  nth i [[12; 4; 6; 2; 10; 5; 11; 9; 14; 8; 13; 7; 0; 3; 15; 1];
         [6; 8; 2; 3; 9; 10; 5; 12; 1; 14; 4; 7; 11; 13; 0; 15];
         [11; 3; 5; 8; 2; 15; 10; 13; 14; 1; 7; 4; 12; 9; 6; 0];
         [12; 8; 2; 1; 13; 4; 15; 6; 7; 0; 10; 5; 3; 14; 9; 11];
         [7; 15; 5; 10; 8; 1; 6; 13; 0; 9; 3; 14; 11; 4; 2; 12];
         [5; 13; 15; 6; 9; 2; 12; 10; 11; 7; 8; 1; 4; 3; 14; 0];
         [8; 14; 2; 5; 6; 9; 1; 12; 15; 4; 11; 0; 13; 10; 3; 7];
         [1; 7; 14; 13; 0; 5; 8; 3; 4; 15; 10; 6; 9; 12; 11; 2]] [].
(** t: the nibble [i] is replaced by its image under pi_i *)
Definition nibble (x : Z) (i : nat) : Z := (x / 2 ^ (4 * Z.of_nat i)) mod 16.
Definition magma_t (x : Z) : Z := fold_left (fun acc i => 16 * acc + nth (Z.to_nat (nibble x i)) (magma_pi i) 0) [7; 6; 5; 4; 3; 2; 1; 0]%nat 0.
Definition rot11 (x : Z) : Z := (x * 2 ^ 11) mod 2 ^ 32 + x / 2 ^ 21.
Definition magma_g (k a : Z) : Z := rot11 (magma_t ((a + k) mod 2 ^ 32)).
Definition magma_G (k : Z) (a : Z * Z) : Z * Z := (snd a, Z.lxor (magma_g k (snd a)) (fst a)).
(** the last round does not exchange the halves *)
Definition magma_Gstar (k : Z) (a : Z * Z) : Z := Z.lxor (magma_g k (snd a)) (fst a) * 2 ^ 32 + snd a.
Definition halves (x : Z) : Z * Z := (x / 2 ^ 32, x mod 2 ^ 32).
(** the round keys K_1 ... K_32: three times the eight words of the key, then backwards *)
Definition magma_word (key : Z) (i : nat) : Z := (key / 2 ^ (224 - 32 * Z.of_nat i)) mod 2 ^ 32.
Definition magma_keys (key : Z) : list Z :=
  let ks := map (magma_word key) (seq 0 8) in ks ++ ks ++ ks ++ rev ks.
Definition magma_crypt (ks : list Z) (x : Z) : Z :=
  magma_Gstar (last ks 0) (fold_left (fun a k => magma_G k a) (removelast ks) (halves x)).
Definition magma_encrypt (key block : Z) : Z := magma_crypt (magma_keys key) block.
Definition magma_decrypt (key block : Z) : Z := magma_crypt (rev (magma_keys key)) block.

(** ** Kuznechik *)
(** the substitution pi *)
Definition kuz_pi : list Z :=
  [252; 238; 221; 17; 207; 110; 49; 22; 251; 196; 250; 218; 35; 197; 4; 77; 233; 119; 240; 219; 147; 46; 153; 186;
   23; 54; 241; 187; 20; 205; 95; 193; 249; 24; 101; 90; 226; 92; 239; 33; 129; 28; 60; 66; 139; 1; 142; 79;
   5; 132; 2; 174; 227; 106; 143; 160; 6; 11; 237; 152; 127; 212; 211; 31; 235; 52; 44; 81; 234; 200; 72; 171;
   242; 42; 104; 162; 253; 58; 206; 204; 181; 112; 14; 86; 8; 12; 118; 18; 191; 114; 19; 71; 156; 183; 93; 135;
   21; 161; 150; 41; 16; 123; 154; 199; 243; 145; 120; 111; 157; 158; 178; 177; 50; 117; 25; 61; 255; 53; 138; 126;
   109; 84; 198; 128; 195; 189; 13; 87; 223; 245; 36; 169; 62; 168; 67; 201; 215; 121; 214; 246; 124; 34; 185; 3;
   224; 15; 236; 222; 122; 148; 176; 188; 220; 232; 40; 80; 78; 51; 10; 74; 167; 151; 96; 115; 30; 0; 98; 68;
   26; 184; 56; 130; 100; 159; 38; 65; 173; 69; 70; 146; 39; 94; 85; 47; 140; 163; 165; 125; 105; 213; 149; 59;
   7; 88; 179; 64; 134; 172; 29; 247; 48; 55; 107; 228; 136; 217; 231; 137; 225; 27; 131; 73; 76; 63; 248; 254;
   141; 83; 170; 144; 202; 216; 133; 97; 32; 113; 103; 164; 45; 43; 9; 91; 203; 155; 37; 208; 190; 229; 108; 82;
   89; 166; 116; 210; 230; 244; 180; 192; 209; 102; 175; 194; 57; 75; 99; 182].
Definition kuz_sub (x : Z) : Z := word_of (map (fun b => nth (Z.to_nat b) kuz_pi 0) (bytes 16 x)).
(** l, R and L *)
Definition kuz_lin (a : list Z) : Z :=
  fold_left Z.lxor (map (fun p => gf_mul (fst p) (snd p)) (combine [148; 32; 133; 16; 194; 192; 1; 251; 1; 192; 194; 16; 133; 32; 148; 1] a)) 0.
Definition kuz_r (x : Z) : Z := let a := bytes 16 x in word_of (kuz_lin a :: removelast a).
Definition kuz_l (x : Z) : Z := Nat.iter 16 kuz_r x.
Definition kuz_lsx (k x : Z) : Z := kuz_l (kuz_sub (Z.lxor k x)).
(** the round constants and the key schedule *)
Definition kuz_c (i : Z) : Z := kuz_l i.
Definition kuz_f (k : Z) (a : Z * Z) : Z * Z := (Z.lxor (kuz_lsx k (fst a)) (snd a), fst a).
Fixpoint kuz_schedule (n : nat) (i : Z) (a : Z * Z) : list Z :=
  fst a :: snd a ::
  match n with
  | O => []
  | S n => kuz_schedule n (i + 8) (fold_left (fun a j => kuz_f (kuz_c (i + j)) a) [1; 2; 3; 4; 5; 6; 7; 8] a)
  end.
Definition kuz_keys (key : Z) : list Z := kuz_schedule 4 0 (key / 2 ^ 128, key mod 2 ^ 128).
Definition kuz_encrypt (key block : Z) : Z :=
  let ks := kuz_keys key in Z.lxor (last ks 0) (fold_left (fun x k => kuz_lsx k x) (removelast ks) block).

(** decryption: the inverse transformations and the round keys backwards *)
Fixpoint index_of (y : Z) (l : list Z) : Z := match l with [] => 0 | x :: l => if x =? y then 0 else 1 + index_of y l end.
Definition kuz_sub_inv (x : Z) : Z := word_of (map (fun b => index_of b kuz_pi) (bytes 16 x)).
Definition kuz_r_inv (x : Z) : Z := let a := bytes 16 x in word_of (tl a ++ [kuz_lin (tl a ++ [hd 0 a])]).
Definition kuz_l_inv (x : Z) : Z := Nat.iter 16 kuz_r_inv x.
Definition kuz_decrypt (key block : Z) : Z :=
  let ks := rev (kuz_keys key) in fold_left (fun x k => Z.lxor k (kuz_sub_inv (kuz_l_inv x))) (tl ks) (Z.lxor (hd 0 ks) block).
