(** * The transform that the example kernel IDCT is to compute (specification).

    Integers only.  The 8x8 block comes as one number of 64 fields of 12 bits, the first
    field being the lowest; the result is one number of 64 fields of 9 bits.  The transform is
    the two passes, over rows and over columns, of the fixed-point inverse cosine transform of
    the reference decoder of IEEE 1180: the weights are 2048 * sqrt 2 * cos (k * pi / 16),
    2841, 2676, 2408, 1609, 1108, 565, and 181 / 256 stands for 1 / sqrt 2.

    [wrap n z]: the number from -2^(n-1) to 2^(n-1)-1 that equals z modulo 2^n.  It shows where
    the widths of the kernel (32 for the intermediate products, 13 between the passes) bound
    what is computed. *)
From Coq Require Import ZArith List.
Import ListNotations.
Local Open Scope Z_scope.

Definition wrap (n z : Z) : Z := (z + 2 ^ (n - 1)) mod 2 ^ n - 2 ^ (n - 1).
(** field [j] of [n] bits, as a signed number *)
Definition field (n X : Z) (j : nat) : Z := wrap n (X / 2 ^ (n * Z.of_nat j)).
(** times 1 / sqrt 2, rounded; the product is kept in 32 bits *)
Definition rsqrt2 (z : Z) : Z := wrap 32 (181 * z + 128) / 2 ^ 8.
(** the combination of the even part [e] and the odd part [o] *)
Definition fold8 (e o : list Z) (j : nat) : Z :=
  match j with
  | 0%nat => nth 0 e 0 + nth 0 o 0 | 1%nat => nth 1 e 0 + nth 1 o 0 | 2%nat => nth 2 e 0 + nth 2 o 0 | 3%nat => nth 3 e 0 + nth 3 o 0
  | 4%nat => nth 3 e 0 - nth 3 o 0 | 5%nat => nth 2 e 0 - nth 2 o 0 | 6%nat => nth 1 e 0 - nth 1 o 0 | _ => nth 0 e 0 - nth 0 o 0
  end.

(** ** The pass over a row: 8 coefficients, each of 12 bits, give 8 numbers of 13 bits *)
Definition row_even (b : nat -> Z) : list Z :=
  [2048 * (b 0%nat + b 4%nat) + 2676 * b 2%nat + 1108 * b 6%nat + 128;
   2048 * (b 0%nat - b 4%nat) + 1108 * b 2%nat - 2676 * b 6%nat + 128;
   2048 * (b 0%nat - b 4%nat) - 1108 * b 2%nat + 2676 * b 6%nat + 128;
   2048 * (b 0%nat + b 4%nat) - 2676 * b 2%nat - 1108 * b 6%nat + 128].
Definition row_odd (b : nat -> Z) : list Z :=
  [2841 * b 1%nat + 2408 * b 3%nat + 1609 * b 5%nat + 565 * b 7%nat;
   rsqrt2 (3406 * b 1%nat - 799 * b 3%nat - 4017 * b 5%nat - 2276 * b 7%nat);
   rsqrt2 (2276 * b 1%nat - 4017 * b 3%nat + 799 * b 5%nat + 3406 * b 7%nat);
   565 * b 1%nat - 1609 * b 3%nat + 2408 * b 5%nat - 2841 * b 7%nat].
Definition idct_row (b : nat -> Z) (j : nat) : Z := wrap 13 (fold8 (row_even b) (row_odd b) j / 2 ^ 8).

(** ** The pass over a column: the products are rounded to 3 bits less *)
Definition eighth (z : Z) : Z := (z + 4) / 2 ^ 3.
Definition col_even (b : nat -> Z) : list Z :=
  let s := 256 * (b 0%nat + b 4%nat) + 8192 in let d := 256 * (b 0%nat - b 4%nat) + 8192 in
  let p := eighth (2676 * b 2%nat + 1108 * b 6%nat) in let q := eighth (1108 * b 2%nat - 2676 * b 6%nat) in
  [s + p; d + q; d - q; s - p].
Definition col_odd (b : nat -> Z) : list Z :=
  let p := eighth (2841 * b 1%nat + 565 * b 7%nat) in let q := eighth (565 * b 1%nat - 2841 * b 7%nat) in
  let r := eighth (2408 * b 3%nat + 1609 * b 5%nat) in let s := eighth (2408 * b 5%nat - 1609 * b 3%nat) in
  [p + r; rsqrt2 ((p - r) + (q - s)); rsqrt2 ((p - r) - (q - s)); q + s].
(** the results are cut to what 9 bits hold *)
Definition clip9 (z : Z) : Z := Z.max (-256) (Z.min z 255).
Definition idct_col (b : nat -> Z) (j : nat) : Z := clip9 (fold8 (col_even b) (col_odd b) j / 2 ^ 14).

(** ** The block: element [c] of row [r] is field [8 r + c] *)
Definition idct_at (X : Z) (r c : nat) : Z :=
  idct_col (fun r' => idct_row (fun c' => field 12 X (8 * r' + c')) c) r.
(** [n] fields of 9 bits, the first being the lowest *)
Fixpoint pack9 (f : nat -> Z) (n : nat) : Z := match n with O => 0 | S m => pack9 f m + f m mod 2 ^ 9 * 2 ^ (9 * Z.of_nat m) end.
Definition idct (X : Z) : Z := pack9 (fun n => idct_at X (n / 8) (n mod 8)) 64.

(** ** Blocks of coefficients, and the transform without the bounds on the widths *)
Fixpoint pack12 (f : nat -> Z) (n : nat) : Z := match n with O => 0 | S m => pack12 f m + f m mod 2 ^ 12 * 2 ^ (12 * Z.of_nat m) end.
(** coefficient [b r c], of 12 bits, of row [r] and column [c] *)
Definition block_of (b : nat -> nat -> Z) : Z := pack12 (fun n => b (n / 8)%nat (n mod 8)%nat) 64.
Definition rsqrt2' (z : Z) : Z := (181 * z + 128) / 2 ^ 8.
Definition row_odd' (b : nat -> Z) : list Z :=
  [2841 * b 1%nat + 2408 * b 3%nat + 1609 * b 5%nat + 565 * b 7%nat;
   rsqrt2' (3406 * b 1%nat - 799 * b 3%nat - 4017 * b 5%nat - 2276 * b 7%nat);
   rsqrt2' (2276 * b 1%nat - 4017 * b 3%nat + 799 * b 5%nat + 3406 * b 7%nat);
   565 * b 1%nat - 1609 * b 3%nat + 2408 * b 5%nat - 2841 * b 7%nat].
Definition ideal_row (b : nat -> Z) (j : nat) : Z := fold8 (row_even b) (row_odd' b) j / 2 ^ 8.
Definition col_odd' (b : nat -> Z) : list Z :=
  let p := eighth (2841 * b 1%nat + 565 * b 7%nat) in let q := eighth (565 * b 1%nat - 2841 * b 7%nat) in
  let r := eighth (2408 * b 3%nat + 1609 * b 5%nat) in let s := eighth (2408 * b 5%nat - 1609 * b 3%nat) in
  [p + r; rsqrt2' ((p - r) + (q - s)); rsqrt2' ((p - r) - (q - s)); q + s].
Definition ideal_col (b : nat -> Z) (j : nat) : Z := clip9 (fold8 (col_even b) (col_odd' b) j / 2 ^ 14).
Definition ideal_at (b : nat -> nat -> Z) (r c : nat) : Z := ideal_col (fun r' => ideal_row (b r') c) r.
