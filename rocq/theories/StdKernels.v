(** * The standard library of kernels (src/model/dfcxx/std/dfcxx/std).

    The constructors of Galois8Mul (algebra/galois8mul.h), MagmaEncoder and MagmaDecoder
    (crypto/gost_34_12/magma.h), KuznechikGalois8Mul (crypto/gost_34_12/kuznechik_galois8mul.h),
    KuznechikEncoder and KuznechikDecoder (crypto/gost_34_12/kuznechik.h), call by call.
    Where C++ leaves the order of two calls open (operands of an operator, arguments of a
    function) the model evaluates from left to right; the order affects only the numbering
    of the variables.  The constant tables are copied from the sources. *)
From Coq Require Import ZArith Bool String.
From stdpp Require Import gmap list.
From Verif Require Import Types Word Value Graph Instance Prog.
Local Open Scope string_scope.
Local Open Scope Z_scope.

(** Kernel::dfUInt, kernel.cpp:37-40 *)
Definition dfUInt (bits : Z) : prog nat := call (CType (mkFixed false bits 0)).
(** [io.input], [io.output] and [io.newStream], io.cpp:19-77 *)
Definition io_input (k : nat) (name : string) (ty : nat) : prog nat := call (CInput k false name ty).
Definition io_output (k : nat) (name : string) (ty : nat) : prog nat := call (COutput k false name ty).
Definition io_newStream (k : nat) (ty : nat) : prog nat := call (CNewVar k false ty).
(** [constant.var(type, uint64_t)], constant.cpp:21-24 *)
Definition const_var (ty : nat) (c : Z) : prog nat := call (CConst ty c).
(** a list of constants, [{C(a), C(b), ...}] *)
Definition const_vars (ty : nat) (l : list Z) : prog (list nat) := pmap (const_var ty) l.
(** [control.mux], control.cpp:18-34 *)
Definition control_mux (k ctrl : nat) (args : list nat) : prog nat := call (CMux k ctrl args).
(** DFVariable::operator()(first, second), var.cpp *)
Definition bits (a : nat) (l r : Z) : prog nat := call (CSlice a l r).
Definition cat (a b : nat) : prog nat := call (CCat a b).
Definition xor (a b : nat) : prog nat := call (CBin XOR a b).
(** [constructor] of a kernel class: Kernel::Kernel (kernel.cpp:29-35), then the body *)
Definition kernel {A} (body : nat -> prog A) : prog A := do k <- call KNew; body k.
(** [instance<K>(bindings)], kernel.h:78-93: K is constructed, then its ports are bound; the
    last binding is the output's, and what its variable is afterwards is returned *)
Definition instance (p : nat) (body : nat -> prog unit) (bs : list (nat * string)) : prog nat :=
  do k <- call KNew; do _ <- body k; do rs <- bind_ports p k bs; Ret (List.last rs 0%nat).

(** ** Galois8Mul, galois8mul.h:26-50 *)
(** one iteration of the loop, lines 37-42, on (left, right, currValue) *)
Definition galois_step (k c0 c195 : nat) (s : nat * nat * nat) : prog (nat * nat * nat) :=
  let '(lft, rgt, curr) := s in
  do isBitSet <- bits rgt 0 0;
  do m <- control_mux k isBitSet [c0; lft];
  do curr' <- xor curr m;
  do aboutToOverflow <- bits lft 7 7;
  do muxed <- control_mux k aboutToOverflow [c0; c195];
  do shifted <- call (CShift true lft 1);
  do lft' <- xor shifted muxed;
  do rgt' <- call (CShift false rgt 1);
  Ret (lft', rgt', curr').
Definition Galois8Mul (k : nat) : prog unit :=
  do ioType <- dfUInt 8;
  do lft <- io_input k "left" ioType;
  do rgt <- io_input k "right" ioType;
  do c0 <- const_var ioType 0;
  do c195 <- const_var ioType 195;
  do s <- pfold (fun s _ => galois_step k c0 c195 s) (lft, rgt, c0) (seq 0 7);
  let '(lft, rgt, curr) := s in
  do isBitSet <- bits rgt 0 0;
  do m <- control_mux k isBitSet [c0; lft];
  do curr <- xor curr m;
  do result <- io_output k "result" ioType;
  do _ <- call (CConnect result curr);
  Ret tt.

(** ** KuznechikGalois8Mul, kuznechik_galois8mul.h:26-253 *)
(** lines 36-65 *)
Definition mul_94 : list Z :=
  [0; 148; 235; 127; 21; 129; 254; 106; 42; 190; 193; 85; 63; 171; 212; 64; 84; 192; 191; 43; 65; 213; 170; 62;
   126; 234; 149; 1; 107; 255; 128; 20; 168; 60; 67; 215; 189; 41; 86; 194; 130; 22; 105; 253; 151; 3; 124; 232;
   252; 104; 23; 131; 233; 125; 2; 150; 214; 66; 61; 169; 195; 87; 40; 188; 147; 7; 120; 236; 134; 18; 109; 249;
   185; 45; 82; 198; 172; 56; 71; 211; 199; 83; 44; 184; 210; 70; 57; 173; 237; 121; 6; 146; 248; 108; 19; 135;
   59; 175; 208; 68; 46; 186; 197; 81; 17; 133; 250; 110; 4; 144; 239; 123; 111; 251; 132; 16; 122; 238; 145; 5;
   69; 209; 174; 58; 80; 196; 187; 47; 229; 113; 14; 154; 240; 100; 27; 143; 207; 91; 36; 176; 218; 78; 49; 165;
   177; 37; 90; 206; 164; 48; 79; 219; 155; 15; 112; 228; 142; 26; 101; 241; 77; 217; 166; 50; 88; 204; 179; 39;
   103; 243; 140; 24; 114; 230; 153; 13; 25; 141; 242; 102; 12; 152; 231; 115; 51; 167; 216; 76; 38; 178; 205; 89;
   118; 226; 157; 9; 99; 247; 136; 28; 92; 200; 183; 35; 73; 221; 162; 54; 34; 182; 201; 93; 55; 163; 220; 72;
   8; 156; 227; 119; 29; 137; 246; 98; 222; 74; 53; 161; 203; 95; 32; 180; 244; 96; 31; 139; 225; 117; 10; 158;
   138; 30; 97; 245; 159; 11; 116; 224; 160; 52; 75; 223; 181; 33; 94; 202].
(** lines 66-95 *)
Definition mul_20 : list Z :=
  [0; 32; 64; 96; 128; 160; 192; 224; 195; 227; 131; 163; 67; 99; 3; 35; 69; 101; 5; 37; 197; 229; 133; 165;
   134; 166; 198; 230; 6; 38; 70; 102; 138; 170; 202; 234; 10; 42; 74; 106; 73; 105; 9; 41; 201; 233; 137; 169;
   207; 239; 143; 175; 79; 111; 15; 47; 12; 44; 76; 108; 140; 172; 204; 236; 215; 247; 151; 183; 87; 119; 23; 55;
   20; 52; 84; 116; 148; 180; 212; 244; 146; 178; 210; 242; 18; 50; 82; 114; 81; 113; 17; 49; 209; 241; 145; 177;
   93; 125; 29; 61; 221; 253; 157; 189; 158; 190; 222; 254; 30; 62; 94; 126; 24; 56; 88; 120; 152; 184; 216; 248;
   219; 251; 155; 187; 91; 123; 27; 59; 109; 77; 45; 13; 237; 205; 173; 141; 174; 142; 238; 206; 46; 14; 110; 78;
   40; 8; 104; 72; 168; 136; 232; 200; 235; 203; 171; 139; 107; 75; 43; 11; 231; 199; 167; 135; 103; 71; 39; 7;
   36; 4; 100; 68; 164; 132; 228; 196; 162; 130; 226; 194; 34; 2; 98; 66; 97; 65; 33; 1; 225; 193; 161; 129;
   186; 154; 250; 218; 58; 26; 122; 90; 121; 89; 57; 25; 249; 217; 185; 153; 255; 223; 191; 159; 127; 95; 63; 31;
   60; 28; 124; 92; 188; 156; 252; 220; 48; 16; 112; 80; 176; 144; 240; 208; 243; 211; 179; 147; 115; 83; 51; 19;
   117; 85; 53; 21; 245; 213; 181; 149; 182; 150; 246; 214; 54; 22; 118; 86].
(** lines 96-125 *)
Definition mul_85 : list Z :=
  [0; 133; 201; 76; 81; 212; 152; 29; 162; 39; 107; 238; 243; 118; 58; 191; 135; 2; 78; 203; 214; 83; 31; 154;
   37; 160; 236; 105; 116; 241; 189; 56; 205; 72; 4; 129; 156; 25; 85; 208; 111; 234; 166; 35; 62; 187; 247; 114;
   74; 207; 131; 6; 27; 158; 210; 87; 232; 109; 33; 164; 185; 60; 112; 245; 89; 220; 144; 21; 8; 141; 193; 68;
   251; 126; 50; 183; 170; 47; 99; 230; 222; 91; 23; 146; 143; 10; 70; 195; 124; 249; 181; 48; 45; 168; 228; 97;
   148; 17; 93; 216; 197; 64; 12; 137; 54; 179; 255; 122; 103; 226; 174; 43; 19; 150; 218; 95; 66; 199; 139; 14;
   177; 52; 120; 253; 224; 101; 41; 172; 178; 55; 123; 254; 227; 102; 42; 175; 16; 149; 217; 92; 65; 196; 136; 13;
   53; 176; 252; 121; 100; 225; 173; 40; 151; 18; 94; 219; 198; 67; 15; 138; 127; 250; 182; 51; 46; 171; 231; 98;
   221; 88; 20; 145; 140; 9; 69; 192; 248; 125; 49; 180; 169; 44; 96; 229; 90; 223; 147; 22; 11; 142; 194; 71;
   235; 110; 34; 167; 186; 63; 115; 246; 73; 204; 128; 5; 24; 157; 209; 84; 108; 233; 165; 32; 61; 184; 244; 113;
   206; 75; 7; 130; 159; 26; 86; 211; 38; 163; 239; 106; 119; 242; 190; 59; 132; 1; 77; 200; 213; 80; 28; 153;
   161; 36; 104; 237; 240; 117; 57; 188; 3; 134; 202; 79; 82; 215; 155; 30].
(** lines 126-157 *)
Definition mul_10 : list Z :=
  [0; 16; 32; 48; 64; 80; 96; 112; 128; 144; 160; 176; 192; 208; 224; 240; 195; 211; 227; 243; 131; 147; 163; 179;
   67; 83; 99; 115; 3; 19; 35; 51; 69; 85; 101; 117; 5; 21; 37; 53; 197; 213; 229; 245; 133; 149; 165; 181;
   134; 150; 166; 182; 198; 214; 230; 246; 6; 22; 38; 54; 70; 86; 102; 118; 138; 154; 170; 186; 202; 218; 234; 250;
   10; 26; 42; 58; 74; 90; 106; 122; 73; 89; 105; 121; 9; 25; 41; 57; 201; 217; 233; 249; 137; 153; 169; 185;
   207; 223; 239; 255; 143; 159; 175; 191; 79; 95; 111; 127; 15; 31; 47; 63; 12; 28; 44; 60; 76; 92; 108; 124;
   140; 156; 172; 188; 204; 220; 236; 252; 215; 199; 247; 231; 151; 135; 183; 167; 87; 71; 119; 103; 23; 7; 55; 39;
   20; 4; 52; 36; 84; 68; 116; 100; 148; 132; 180; 164; 212; 196; 244; 228; 146; 130; 178; 162; 210; 194; 242; 226;
   18; 2; 50; 34; 82; 66; 114; 98; 81; 65; 113; 97; 17; 1; 49; 33; 209; 193; 241; 225; 145; 129; 177; 161;
   93; 77; 125; 109; 29; 13; 61; 45; 221; 205; 253; 237; 157; 141; 189; 173; 158; 142; 190; 174; 222; 206; 254; 238;
   30; 14; 62; 46; 94; 78; 126; 110; 24; 8; 56; 40; 88; 72; 120; 104; 152; 136; 184; 168; 216; 200; 248; 232;
   219; 203; 251; 235; 155; 139; 187; 171; 91; 75; 123; 107; 27; 11; 59; 43].
(** lines 158-187 *)
Definition mul_C2 : list Z :=
  [0; 194; 71; 133; 142; 76; 201; 11; 223; 29; 152; 90; 81; 147; 22; 212; 125; 191; 58; 248; 243; 49; 180; 118;
   162; 96; 229; 39; 44; 238; 107; 169; 250; 56; 189; 127; 116; 182; 51; 241; 37; 231; 98; 160; 171; 105; 236; 46;
   135; 69; 192; 2; 9; 203; 78; 140; 88; 154; 31; 221; 214; 20; 145; 83; 55; 245; 112; 178; 185; 123; 254; 60;
   232; 42; 175; 109; 102; 164; 33; 227; 74; 136; 13; 207; 196; 6; 131; 65; 149; 87; 210; 16; 27; 217; 92; 158;
   205; 15; 138; 72; 67; 129; 4; 198; 18; 208; 85; 151; 156; 94; 219; 25; 176; 114; 247; 53; 62; 252; 121; 187;
   111; 173; 40; 234; 225; 35; 166; 100; 110; 172; 41; 235; 224; 34; 167; 101; 177; 115; 246; 52; 63; 253; 120; 186;
   19; 209; 84; 150; 157; 95; 218; 24; 204; 14; 139; 73; 66; 128; 5; 199; 148; 86; 211; 17; 26; 216; 93; 159;
   75; 137; 12; 206; 197; 7; 130; 64; 233; 43; 174; 108; 103; 165; 32; 226; 54; 244; 113; 179; 184; 122; 255; 61;
   89; 155; 30; 220; 215; 21; 144; 82; 134; 68; 193; 3; 8; 202; 79; 141; 36; 230; 99; 161; 170; 104; 237; 47;
   251; 57; 188; 126; 117; 183; 50; 240; 163; 97; 228; 38; 45; 239; 106; 168; 124; 190; 59; 249; 242; 48; 181; 119;
   222; 28; 153; 91; 80; 146; 23; 213; 1; 195; 70; 132; 143; 77; 200; 10].
(** lines 188-217 *)
Definition mul_C0 : list Z :=
  [0; 192; 67; 131; 134; 70; 197; 5; 207; 15; 140; 76; 73; 137; 10; 202; 93; 157; 30; 222; 219; 27; 152; 88;
   146; 82; 209; 17; 20; 212; 87; 151; 186; 122; 249; 57; 60; 252; 127; 191; 117; 181; 54; 246; 243; 51; 176; 112;
   231; 39; 164; 100; 97; 161; 34; 226; 40; 232; 107; 171; 174; 110; 237; 45; 183; 119; 244; 52; 49; 241; 114; 178;
   120; 184; 59; 251; 254; 62; 189; 125; 234; 42; 169; 105; 108; 172; 47; 239; 37; 229; 102; 166; 163; 99; 224; 32;
   13; 205; 78; 142; 139; 75; 200; 8; 194; 2; 129; 65; 68; 132; 7; 199; 80; 144; 19; 211; 214; 22; 149; 85;
   159; 95; 220; 28; 25; 217; 90; 154; 173; 109; 238; 46; 43; 235; 104; 168; 98; 162; 33; 225; 228; 36; 167; 103;
   240; 48; 179; 115; 118; 182; 53; 245; 63; 255; 124; 188; 185; 121; 250; 58; 23; 215; 84; 148; 145; 81; 210; 18;
   216; 24; 155; 91; 94; 158; 29; 221; 74; 138; 9; 201; 204; 12; 143; 79; 133; 69; 198; 6; 3; 195; 64; 128;
   26; 218; 89; 153; 156; 92; 223; 31; 213; 21; 150; 86; 83; 147; 16; 208; 71; 135; 4; 196; 193; 1; 130; 66;
   136; 72; 203; 11; 14; 206; 77; 141; 160; 96; 227; 35; 38; 230; 101; 165; 111; 175; 44; 236; 233; 41; 170; 106;
   253; 61; 190; 126; 123; 187; 56; 248; 50; 242; 113; 177; 180; 116; 247; 55].
(** lines 218-247 *)
Definition mul_FB : list Z :=
  [0; 251; 53; 206; 106; 145; 95; 164; 212; 47; 225; 26; 190; 69; 139; 112; 107; 144; 94; 165; 1; 250; 52; 207;
   191; 68; 138; 113; 213; 46; 224; 27; 214; 45; 227; 24; 188; 71; 137; 114; 2; 249; 55; 204; 104; 147; 93; 166;
   189; 70; 136; 115; 215; 44; 226; 25; 105; 146; 92; 167; 3; 248; 54; 205; 111; 148; 90; 161; 5; 254; 48; 203;
   187; 64; 142; 117; 209; 42; 228; 31; 4; 255; 49; 202; 110; 149; 91; 160; 208; 43; 229; 30; 186; 65; 143; 116;
   185; 66; 140; 119; 211; 40; 230; 29; 109; 150; 88; 163; 7; 252; 50; 201; 210; 41; 231; 28; 184; 67; 141; 118;
   6; 253; 51; 200; 108; 151; 89; 162; 222; 37; 235; 16; 180; 79; 129; 122; 10; 241; 63; 196; 96; 155; 85; 174;
   181; 78; 128; 123; 223; 36; 234; 17; 97; 154; 84; 175; 11; 240; 62; 197; 8; 243; 61; 198; 98; 153; 87; 172;
   220; 39; 233; 18; 182; 77; 131; 120; 99; 152; 86; 173; 9; 242; 60; 199; 183; 76; 130; 121; 221; 38; 232; 19;
   177; 74; 132; 127; 219; 32; 238; 21; 101; 158; 80; 171; 15; 244; 58; 193; 218; 33; 239; 20; 176; 75; 133; 126;
   14; 245; 59; 192; 100; 159; 81; 170; 103; 156; 82; 169; 13; 246; 56; 195; 179; 72; 134; 125; 217; 34; 236; 23;
   12; 247; 57; 194; 102; 157; 83; 168; 216; 35; 237; 22; 178; 73; 135; 124].
(** the switch, lines 34-250 *)
Definition mul_table (c : Z) : option (list Z) :=
  if c =? 0x94 then Some mul_94 else if c =? 0x20 then Some mul_20 else if c =? 0x85 then Some mul_85
  else if c =? 0x10 then Some mul_10 else if c =? 0xC2 then Some mul_C2 else if c =? 0xC0 then Some mul_C0
  else if c =? 0xFB then Some mul_FB else None.
Definition KuznechikGalois8Mul (constVal : Z) (k : nat) : prog unit :=
  do type <- dfUInt 8;
  do in_ <- io_input k "in" type;
  do out <- io_output k "out" type;
  do muxed <- (if constVal =? 1 then Ret in_
               else match mul_table constVal with
                    | Some t => do cs <- const_vars type t; control_mux k in_ cs
                    | None => Abort
                    end);
  do _ <- call (CConnect out muxed);
  Ret tt.

(** ** Magma, magma.h *)
(** the tables of [permut], lines 47-111 *)
Definition magma_table (id : nat) : list nat :=
  match id with
  | 0%nat => [12; 4; 6; 2; 10; 5; 11; 9; 14; 8; 13; 7; 0; 3; 15; 1]%nat
  | 1%nat => [6; 8; 2; 3; 9; 10; 5; 12; 1; 14; 4; 7; 11; 13; 0; 15]%nat
  | 2%nat => [11; 3; 5; 8; 2; 15; 10; 13; 14; 1; 7; 4; 12; 9; 6; 0]%nat
  | 3%nat => [12; 8; 2; 1; 13; 4; 15; 6; 7; 0; 10; 5; 3; 14; 9; 11]%nat
  | 4%nat => [7; 15; 5; 10; 8; 1; 6; 13; 0; 9; 3; 14; 11; 4; 2; 12]%nat
  | 5%nat => [5; 13; 15; 6; 9; 2; 12; 10; 11; 7; 8; 1; 4; 3; 14; 0]%nat
  | 6%nat => [8; 14; 2; 5; 6; 9; 1; 12; 15; 4; 11; 0; 13; 10; 3; 7]%nat
  | 7%nat => [1; 7; 14; 13; 0; 5; 8; 3; 4; 15; 10; 6; 9; 12; 11; 2]%nat
  | _ => []
  end.
(** permut, lines 27-114; the default case (line 112) *)
Definition magma_permut (k : nat) (tableId : nat) (val : nat) : prog nat :=
  do type <- dfUInt 4;
  do cs <- const_vars type (map Z.of_nat (seq 0 16));
  if (tableId <? 8)%nat then control_mux k val (map (fun j => nth j cs 0%nat) (magma_table tableId))
  else Ret (nth 0 cs 0%nat).
(** round, lines 116-131 *)
Definition magma_round (k : nat) (lr : nat * nat) (key : nat) : prog (nat * nat) :=
  let '(lft, rgt) := lr in
  do type <- dfUInt 32;
  do a <- call (CCast rgt type);
  do b <- call (CCast key type);
  do sum <- call (CBin ADD a b);
  do parts <- pmap (fun i => bits sum (4 * Z.of_nat i + 3) (4 * Z.of_nat i)) (seq 0 8);
  do s7 <- magma_permut k 7 (nth 7 parts 0%nat);
  do subst <- pfold (fun s i => do p <- magma_permut k i (nth i parts 0%nat); cat s p) s7 [6; 5; 4; 3; 2; 1; 0]%nat;
  do lo <- bits subst 20 0;
  do hi <- bits subst 31 21;
  do shifted <- cat lo hi;
  do x <- xor lft shifted;
  Ret (rgt, x).
(** the body both constructors share but for the order of the round keys *)
Definition magma_body (k : nat) (from to : string) (order : list nat) : prog nat :=
  do ioType <- dfUInt 64;
  do block <- io_input k from ioType;
  do keyType <- dfUInt 256;
  do key <- io_input k "key" keyType;
  do l <- bits block 63 32;
  do r <- bits block 31 0;
  do keys <- pmap (fun i => bits key (255 - 32 * Z.of_nat i) (224 - 32 * Z.of_nat i)) (seq 0 8);
  do lr <- pfold (fun lr i => magma_round k lr (nth i keys 0%nat)) (l, r) order;
  do out <- io_output k to ioType;
  do res <- cat (snd lr) (fst lr);
  do _ <- call (CConnect out res);
  Ret out.
(** MagmaEncoder, lines 140-161 *)
Definition MagmaEncoder (k : nat) : prog nat :=
  magma_body k "block" "encoded" (seq 0 8 ++ seq 0 8 ++ seq 0 8 ++ rev (seq 0 8)).
(** MagmaDecoder, lines 170-191 *)
Definition MagmaDecoder (k : nat) : prog nat :=
  magma_body k "encoded" "block" (seq 0 8 ++ rev (seq 0 8) ++ rev (seq 0 8) ++ rev (seq 0 8)).

(** ** Kuznechik, kuznechik.h *)
(** lines 39-72 *)
Definition permut_inv : list Z :=
  [165; 45; 50; 143; 14; 48; 56; 192; 84; 230; 158; 57; 85; 126; 82; 145; 100; 3; 87; 90; 28; 96; 7; 24;
   33; 114; 168; 209; 41; 198; 164; 63; 224; 39; 141; 12; 130; 234; 174; 180; 154; 99; 73; 229; 66; 228; 21; 183;
   200; 6; 112; 157; 65; 117; 25; 201; 170; 252; 77; 191; 42; 115; 132; 213; 195; 175; 43; 134; 167; 177; 178; 91;
   70; 211; 159; 253; 212; 15; 156; 47; 155; 67; 239; 217; 121; 182; 83; 127; 193; 240; 35; 231; 37; 94; 181; 30;
   162; 223; 166; 254; 172; 34; 249; 226; 74; 188; 53; 202; 238; 120; 5; 107; 81; 225; 89; 163; 242; 113; 86; 17;
   106; 137; 148; 101; 140; 187; 119; 60; 123; 40; 171; 210; 49; 222; 196; 95; 204; 207; 118; 44; 184; 216; 46; 54;
   219; 105; 179; 20; 149; 190; 98; 161; 59; 22; 102; 233; 92; 108; 109; 173; 55; 97; 75; 185; 227; 186; 241; 160;
   133; 131; 218; 71; 197; 176; 51; 250; 150; 111; 110; 194; 246; 80; 255; 93; 169; 142; 23; 27; 151; 125; 236; 88;
   247; 31; 251; 124; 9; 13; 122; 103; 69; 135; 220; 232; 79; 29; 78; 4; 235; 248; 243; 62; 61; 189; 138; 136;
   221; 205; 11; 19; 152; 2; 147; 128; 144; 208; 36; 52; 203; 237; 244; 206; 153; 16; 68; 64; 146; 58; 1; 38;
   18; 26; 72; 104; 245; 129; 139; 199; 214; 32; 10; 8; 0; 76; 215; 116].
(** lines 74-107 *)
Definition permut_fwd : list Z :=
  [252; 238; 221; 17; 207; 110; 49; 22; 251; 196; 250; 218; 35; 197; 4; 77; 233; 119; 240; 219; 147; 46; 153; 186;
   23; 54; 241; 187; 20; 205; 95; 193; 249; 24; 101; 90; 226; 92; 239; 33; 129; 28; 60; 66; 139; 1; 142; 79;
   5; 132; 2; 174; 227; 106; 143; 160; 6; 11; 237; 152; 127; 212; 211; 31; 235; 52; 44; 81; 234; 200; 72; 171;
   242; 42; 104; 162; 253; 58; 206; 204; 181; 112; 14; 86; 8; 12; 118; 18; 191; 114; 19; 71; 156; 183; 93; 135;
   21; 161; 150; 41; 16; 123; 154; 199; 243; 145; 120; 111; 157; 158; 178; 177; 50; 117; 25; 61; 255; 53; 138; 126;
   109; 84; 198; 128; 195; 189; 13; 87; 223; 245; 36; 169; 62; 168; 67; 201; 215; 121; 214; 246; 124; 34; 185; 3;
   224; 15; 236; 222; 122; 148; 176; 188; 220; 232; 40; 80; 78; 51; 10; 74; 167; 151; 96; 115; 30; 0; 98; 68;
   26; 184; 56; 130; 100; 159; 38; 65; 173; 69; 70; 146; 39; 94; 85; 47; 140; 163; 165; 125; 105; 213; 149; 59;
   7; 88; 179; 64; 134; 172; 29; 247; 48; 55; 107; 228; 136; 217; 231; 137; 225; 27; 131; 73; 76; 63; 248; 254;
   141; 83; 170; 144; 202; 216; 133; 97; 32; 113; 103; 164; 45; 43; 9; 91; 203; 155; 37; 208; 190; 229; 108; 82;
   89; 166; 116; 210; 230; 244; 180; 192; 209; 102; 175; 194; 57; 75; 99; 182].
(** tablePermut, lines 36-109 *)
Definition tablePermut (k val : nat) (inv : bool) : prog nat :=
  do type <- dfUInt 8;
  do cs <- const_vars type (if inv then permut_inv else permut_fwd);
  control_mux k val cs.
(** S, lines 111-118 *)
Definition kuz_S (k value : nat) (inv : bool) : prog nat :=
  do v <- bits value 127 120;
  do subst <- tablePermut k v inv;
  pfold (fun s i => do v <- bits value (127 - 8 * Z.of_nat i) (120 - 8 * Z.of_nat i); do t <- tablePermut k v inv; cat s t) subst (seq 1 15).
(** the coefficients, lines 125-128 and 152-161 *)
Definition kuz_coeffs : list Z := [148; 32; 133; 16; 194; 192; 1; 251; 1; 192; 194; 16; 133; 32; 148; 1].
(** LGalois with tables, lines 124-149 *)
Definition LGalois_opt (k val : nat) : prog nat :=
  do type <- dfUInt 8;
  do currSlice <- bits val 127 120;
  do result <- io_newStream k type;
  do result <- instance k (KuznechikGalois8Mul (nth 0 kuz_coeffs 0)) [(currSlice, "in"); (result, "out")];
  pfold (fun result i =>
    do buf <- io_newStream k type;
    do currSlice <- bits val (127 - 8 * Z.of_nat i) (120 - 8 * Z.of_nat i);
    do buf <- instance k (KuznechikGalois8Mul (nth i kuz_coeffs 0)) [(currSlice, "in"); (buf, "out")];
    xor result buf) result (seq 1 15).
(** LGalois, lines 151-183 *)
Definition LGalois_classic (k val : nat) : prog nat :=
  do type <- dfUInt 8;
  do consts <- const_vars type kuz_coeffs;
  do currSlice <- bits val 127 120;
  do result <- io_newStream k type;
  do result <- instance k Galois8Mul [(nth 0 consts 0%nat, "left"); (currSlice, "right"); (result, "result")];
  pfold (fun result i =>
    do buf <- io_newStream k type;
    do currSlice <- bits val (127 - 8 * Z.of_nat i) (120 - 8 * Z.of_nat i);
    do buf <- instance k Galois8Mul [(nth i consts 0%nat, "left"); (currSlice, "right"); (buf, "result")];
    xor result buf) result (seq 1 15).
Definition LGalois (opt : bool) (k val : nat) : prog nat := if opt then LGalois_opt k val else LGalois_classic k val.
(** R, lines 185-192 *)
Definition kuz_R (opt : bool) (k val : nat) (inv : bool) : prog nat :=
  if inv then
    do extracted <- bits val 119 0;
    do top <- bits val 127 120;
    do rot <- cat extracted top;
    do l <- LGalois opt k rot;
    cat extracted l
  else
    do l <- LGalois opt k val;
    do rest <- bits val 127 8;
    cat l rest.
(** L, lines 194-200 *)
Definition kuz_L (opt : bool) (k val : nat) (inv : bool) : prog nat := pfold (fun v _ => kuz_R opt k v inv) val (seq 0 16).
(** getConsts, lines 202-238 *)
Definition kuz_consts : list (Z * Z) :=
  [(0x6ea276726c487ab8, 0x5d27bd10dd849401);
   (0xdc87ece4d890f4b3, 0xba4eb92079cbeb02);
   (0xb2259a96b4d88e0b, 0xe7690430a44f7f03);
   (0x7bcd1b0b73e32ba5, 0xb79cb140f2551504);
   (0x156f6d791fab511d, 0xeabb0c502fd18105);
   (0xa74af7efab73df16, 0x0dd208608b9efe06);
   (0xc9e8819dc73ba5ae, 0x50f5b570561a6a07);
   (0xf6593616e6055689, 0xadfba18027aa2a08);
   (0x98fb40648a4d2c31, 0xf0dc1c90fa2ebe09);
   (0x2adedaf23e95a23a, 0x17b518a05e61c10a);
   (0x447cac8052ddd882, 0x4a92a5b083e5550b);
   (0x8d942d1d95e67d2c, 0x1a6710c0d5ff3f0c);
   (0xe3365b6ff9ae0794, 0x4740add0087bab0d);
   (0x5113c1f94d76899f, 0xa029a9e0ac34d40e);
   (0x3fb1b78b213ef327, 0xfd0e14f071b0400f);
   (0x2fb26c2c0f0aacd1, 0x993581c34e975410);
   (0x41101a5e6342d669, 0xc4123cd39313c011);
   (0xf33580c8d79a5862, 0x237b38e3375cbf12);
   (0x9d97f6babbd222da, 0x7e5c85f3ead82b13);
   (0x547f77277ce98774, 0x2ea93083bcc24114);
   (0x3add015510a1fdcc, 0x738e8d936146d515);
   (0x88f89bc3a47973c7, 0x94e789a3c509aa16);
   (0xe65aedb1c831097f, 0xc9c034b3188d3e17);
   (0xd9eb5a3ae90ffa58, 0x34ce2043693d7e18);
   (0xb7492c48854780e0, 0x69e99d53b4b9ea19);
   (0x056cb6de319f0eeb, 0x8e80996310f6951a);
   (0x6bcec0ac5dd77453, 0xd3a72473cd72011b);
   (0xa22641319aecd1fd, 0x835291039b686b1c);
   (0xcc843743f6a4ab45, 0xde752c1346ecff1d);
   (0x7ea1add5427c254e, 0x391c2823e2a3801e);
   (0x1003dba72e345ff6, 0x643b95333f27141f);
   (0x5ea7d8581e149b61, 0xf16ac1459ceda820)].
Definition getConsts : prog (list nat) :=
  do type <- dfUInt 64;
  pmap (fun c => do hi <- const_var type (fst c); do lo <- const_var type (snd c); cat hi lo) kuz_consts.
(** XSL, lines 262-266 *)
Definition XSL (opt : bool) (k key value : nat) : prog nat :=
  do addedKey <- xor key value;
  do permut <- kuz_S k addedKey false;
  kuz_L opt k permut false.
(** LSX, lines 268-272 *)
Definition LSX (opt : bool) (k key value : nat) : prog nat :=
  do lResult <- kuz_L opt k value true;
  do permut <- kuz_S k lResult true;
  xor key permut.
(** F, lines 240-243 *)
Definition kuz_F (opt : bool) (k constVal : nat) (a : nat * nat) : prog (nat * nat) :=
  do x <- XSL opt k constVal (fst a);
  do y <- xor x (snd a);
  Ret (y, fst a).
(** genKeys, lines 245-260 *)
Definition genKeys (opt : bool) (k k0 k1 : nat) : prog (list nat) :=
  do consts <- getConsts;
  pfold (fun keys i =>
      do curr <- pfold (fun c j => kuz_F opt k (nth (8 * i + j) consts 0%nat) c) (nth (2 * i) keys 0%nat, nth (2 * i + 1) keys 0%nat) (seq 0 8);
      Ret (keys ++ [fst curr; snd curr])%list) [k0; k1] (seq 0 4).
(** KuznechikEncoder, lines 285-302 *)
Definition KuznechikEncoder (opt : bool) (k : nat) : prog nat :=
  do ioType <- dfUInt 128;
  do block <- io_input k "block" ioType;
  do keyType <- dfUInt 256;
  do key <- io_input k "key" keyType;
  do k0 <- bits key 255 128;
  do k1 <- bits key 127 0;
  do gKeys <- genKeys opt k k0 k1;
  do currValue <- pfold (fun v i => XSL opt k (nth i gKeys 0%nat) v) block (seq 0 9);
  do currValue <- xor currValue (nth 9 gKeys 0%nat);
  do encoded <- io_output k "encoded" ioType;
  do _ <- call (CConnect encoded currValue);
  Ret encoded.
(** KuznechikDecoder, lines 311-326 *)
Definition KuznechikDecoder (opt : bool) (k : nat) : prog nat :=
  do ioType <- dfUInt 128;
  do encoded <- io_input k "encoded" ioType;
  do keyType <- dfUInt 256;
  do key <- io_input k "key" keyType;
  do k0 <- bits key 255 128;
  do k1 <- bits key 127 0;
  do gKeys <- genKeys opt k k0 k1;
  do currValue <- xor encoded (nth 9 gKeys 0%nat);
  do currValue <- pfold (fun v i => LSX opt k (nth i gKeys 0%nat) v) currValue (rev (seq 0 9));
  do block <- io_output k "block" ioType;
  do _ <- call (CConnect block currValue);
  Ret block.
