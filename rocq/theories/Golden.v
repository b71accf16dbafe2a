(** * The golden files of the examples.

    The texts of /repo/test/examples/{polynomial2,addconst,movingsum,scalar3,matrixmul2}.mlir
    as token lists, and the calls that the kernels of /repo/examples make. *)
From Coq Require Import ZArith Bool String.
From stdpp Require Import gmap list.
From Verif Require Import Types Word Value OpSpec Graph GraphSpec Verify Asm.
Local Open Scope Z_scope.
Local Open Scope string_scope.

(** test/examples/polynomial2/polynomial2.mlir *)
Definition polynomial2_text : list tok :=
  [KWord "module"; KLBrace; KWord "dfcir.kernel"; KStr "Polynomial2"; KLBrace; KVal 0; KEqual; KWord "dfcir.input"; KLess; KType "dfcir.fixed"; KLess;
   KWord "false"; KComma; KInt (32); KComma; KInt 0; KGreater; KGreater; KLParen; KStr "x"; KRParen; KVal 1; KEqual; KWord "dfcir.mul"; KLSquare;
   KQuestion; KRSquare; KLParen; KVal 0; KColon; KType "dfcir.stream"; KLess; KType "dfcir.fixed"; KLess; KWord "false"; KComma; KInt (32); KComma;
   KInt 0; KGreater; KGreater; KComma; KVal 0; KColon; KType "dfcir.stream"; KLess; KType "dfcir.fixed"; KLess; KWord "false"; KComma; KInt (32);
   KComma; KInt 0; KGreater; KGreater; KRParen; KColon; KType "dfcir.stream"; KLess; KType "dfcir.fixed"; KLess; KWord "false"; KComma; KInt (32);
   KComma; KInt 0; KGreater; KGreater; KLBrace; KWord "latency"; KEqual; KInt (-1); KColon; KIntTy Signless 32; KRBrace; KVal 2; KEqual; KWord
   "dfcir.add"; KLSquare; KQuestion; KRSquare; KLParen; KVal 1; KColon; KType "dfcir.stream"; KLess; KType "dfcir.fixed"; KLess; KWord "false";
   KComma; KInt (32); KComma; KInt 0; KGreater; KGreater; KComma; KVal 0; KColon; KType "dfcir.stream"; KLess; KType "dfcir.fixed"; KLess; KWord
   "false"; KComma; KInt (32); KComma; KInt 0; KGreater; KGreater; KRParen; KColon; KType "dfcir.stream"; KLess; KType "dfcir.fixed"; KLess; KWord
   "false"; KComma; KInt (32); KComma; KInt 0; KGreater; KGreater; KLBrace; KWord "latency"; KEqual; KInt (-1); KColon; KIntTy Signless 32; KRBrace;
   KVal 3; KEqual; KWord "dfcir.add"; KLSquare; KQuestion; KRSquare; KLParen; KVal 2; KColon; KType "dfcir.stream"; KLess; KType "dfcir.fixed"; KLess;
   KWord "false"; KComma; KInt (32); KComma; KInt 0; KGreater; KGreater; KComma; KVal 0; KColon; KType "dfcir.stream"; KLess; KType "dfcir.fixed";
   KLess; KWord "false"; KComma; KInt (32); KComma; KInt 0; KGreater; KGreater; KRParen; KColon; KType "dfcir.stream"; KLess; KType "dfcir.fixed";
   KLess; KWord "false"; KComma; KInt (32); KComma; KInt 0; KGreater; KGreater; KLBrace; KWord "latency"; KEqual; KInt (-1); KColon; KIntTy Signless
   32; KRBrace; KVal 4; KEqual; KWord "dfcir.output"; KLess; KType "dfcir.fixed"; KLess; KWord "false"; KComma; KInt (32); KComma; KInt 0; KGreater;
   KGreater; KLParen; KStr "out"; KRParen; KLBrace; KWord "operandSegmentSizes"; KEqual; KWord "array"; KLess; KIntTy Signless 32; KColon; KInt 0;
   KComma; KInt 0; KGreater; KRBrace; KWord "dfcir.connect"; KLParen; KVal 4; KColon; KType "dfcir.stream"; KLess; KType "dfcir.fixed"; KLess; KWord
   "false"; KComma; KInt (32); KComma; KInt 0; KGreater; KGreater; KComma; KVal 3; KColon; KType "dfcir.stream"; KLess; KType "dfcir.fixed"; KLess;
   KWord "false"; KComma; KInt (32); KComma; KInt 0; KGreater; KGreater; KRParen; KRBrace; KRBrace].

(** test/examples/addconst/addconst.mlir *)
Definition addconst_text : list tok :=
  [KWord "module"; KLBrace; KWord "dfcir.kernel"; KStr "AddConst"; KLBrace; KVal 0; KEqual; KWord "dfcir.constant"; KLess; KType "dfcir.fixed"; KLess;
   KWord "false"; KComma; KInt (32); KComma; KInt 0; KGreater; KGreater; KInt (5); KColon; KIntTy UnsignedInt 32; KVal 1; KEqual; KWord "dfcir.input";
   KLess; KType "dfcir.fixed"; KLess; KWord "false"; KComma; KInt (32); KComma; KInt 0; KGreater; KGreater; KLParen; KStr "x"; KRParen; KVal 2;
   KEqual; KWord "dfcir.add"; KLSquare; KQuestion; KRSquare; KLParen; KVal 1; KColon; KType "dfcir.stream"; KLess; KType "dfcir.fixed"; KLess; KWord
   "false"; KComma; KInt (32); KComma; KInt 0; KGreater; KGreater; KComma; KVal 1; KColon; KType "dfcir.stream"; KLess; KType "dfcir.fixed"; KLess;
   KWord "false"; KComma; KInt (32); KComma; KInt 0; KGreater; KGreater; KRParen; KColon; KType "dfcir.stream"; KLess; KType "dfcir.fixed"; KLess;
   KWord "false"; KComma; KInt (32); KComma; KInt 0; KGreater; KGreater; KLBrace; KWord "latency"; KEqual; KInt (-1); KColon; KIntTy Signless 32;
   KRBrace; KVal 3; KEqual; KWord "dfcir.add"; KLSquare; KQuestion; KRSquare; KLParen; KVal 2; KColon; KType "dfcir.stream"; KLess; KType
   "dfcir.fixed"; KLess; KWord "false"; KComma; KInt (32); KComma; KInt 0; KGreater; KGreater; KComma; KVal 0; KColon; KType "dfcir.const"; KLess;
   KType "dfcir.fixed"; KLess; KWord "false"; KComma; KInt (32); KComma; KInt 0; KGreater; KGreater; KRParen; KColon; KType "dfcir.stream"; KLess;
   KType "dfcir.fixed"; KLess; KWord "false"; KComma; KInt (32); KComma; KInt 0; KGreater; KGreater; KLBrace; KWord "latency"; KEqual; KInt (-1);
   KColon; KIntTy Signless 32; KRBrace; KVal 4; KEqual; KWord "dfcir.add"; KLSquare; KQuestion; KRSquare; KLParen; KVal 3; KColon; KType
   "dfcir.stream"; KLess; KType "dfcir.fixed"; KLess; KWord "false"; KComma; KInt (32); KComma; KInt 0; KGreater; KGreater; KComma; KVal 1; KColon;
   KType "dfcir.stream"; KLess; KType "dfcir.fixed"; KLess; KWord "false"; KComma; KInt (32); KComma; KInt 0; KGreater; KGreater; KRParen; KColon;
   KType "dfcir.stream"; KLess; KType "dfcir.fixed"; KLess; KWord "false"; KComma; KInt (32); KComma; KInt 0; KGreater; KGreater; KLBrace; KWord
   "latency"; KEqual; KInt (-1); KColon; KIntTy Signless 32; KRBrace; KVal 5; KEqual; KWord "dfcir.output"; KLess; KType "dfcir.fixed"; KLess; KWord
   "false"; KComma; KInt (32); KComma; KInt 0; KGreater; KGreater; KLParen; KStr "out"; KRParen; KLBrace; KWord "operandSegmentSizes"; KEqual; KWord
   "array"; KLess; KIntTy Signless 32; KColon; KInt 0; KComma; KInt 0; KGreater; KRBrace; KWord "dfcir.connect"; KLParen; KVal 5; KColon; KType
   "dfcir.stream"; KLess; KType "dfcir.fixed"; KLess; KWord "false"; KComma; KInt (32); KComma; KInt 0; KGreater; KGreater; KComma; KVal 4; KColon;
   KType "dfcir.stream"; KLess; KType "dfcir.fixed"; KLess; KWord "false"; KComma; KInt (32); KComma; KInt 0; KGreater; KGreater; KRParen; KRBrace;
   KRBrace].

(** test/examples/movingsum/movingsum.mlir *)
Definition movingsum_text : list tok :=
  [KWord "module"; KLBrace; KWord "dfcir.kernel"; KStr "MovingSum"; KLBrace; KVal 0; KEqual; KWord "dfcir.input"; KLess; KType "dfcir.fixed"; KLess;
   KWord "false"; KComma; KInt (32); KComma; KInt 0; KGreater; KGreater; KLParen; KStr "x"; KRParen; KVal 1; KEqual; KWord "dfcir.offset"; KLParen;
   KVal 0; KComma; KInt (1); KColon; KIntTy Signless 64; KRParen; KColon; KType "dfcir.stream"; KLess; KType "dfcir.fixed"; KLess; KWord "false";
   KComma; KInt (32); KComma; KInt 0; KGreater; KGreater; KVal 2; KEqual; KWord "dfcir.offset"; KLParen; KVal 0; KComma; KInt (-1); KColon; KIntTy
   Signless 64; KRParen; KColon; KType "dfcir.stream"; KLess; KType "dfcir.fixed"; KLess; KWord "false"; KComma; KInt (32); KComma; KInt 0; KGreater;
   KGreater; KVal 3; KEqual; KWord "dfcir.add"; KLSquare; KQuestion; KRSquare; KLParen; KVal 2; KColon; KType "dfcir.stream"; KLess; KType
   "dfcir.fixed"; KLess; KWord "false"; KComma; KInt (32); KComma; KInt 0; KGreater; KGreater; KComma; KVal 0; KColon; KType "dfcir.stream"; KLess;
   KType "dfcir.fixed"; KLess; KWord "false"; KComma; KInt (32); KComma; KInt 0; KGreater; KGreater; KRParen; KColon; KType "dfcir.stream"; KLess;
   KType "dfcir.fixed"; KLess; KWord "false"; KComma; KInt (32); KComma; KInt 0; KGreater; KGreater; KLBrace; KWord "latency"; KEqual; KInt (-1);
   KColon; KIntTy Signless 32; KRBrace; KVal 4; KEqual; KWord "dfcir.add"; KLSquare; KQuestion; KRSquare; KLParen; KVal 3; KColon; KType
   "dfcir.stream"; KLess; KType "dfcir.fixed"; KLess; KWord "false"; KComma; KInt (32); KComma; KInt 0; KGreater; KGreater; KComma; KVal 1; KColon;
   KType "dfcir.stream"; KLess; KType "dfcir.fixed"; KLess; KWord "false"; KComma; KInt (32); KComma; KInt 0; KGreater; KGreater; KRParen; KColon;
   KType "dfcir.stream"; KLess; KType "dfcir.fixed"; KLess; KWord "false"; KComma; KInt (32); KComma; KInt 0; KGreater; KGreater; KLBrace; KWord
   "latency"; KEqual; KInt (-1); KColon; KIntTy Signless 32; KRBrace; KVal 5; KEqual; KWord "dfcir.output"; KLess; KType "dfcir.fixed"; KLess; KWord
   "false"; KComma; KInt (32); KComma; KInt 0; KGreater; KGreater; KLParen; KStr "out"; KRParen; KLBrace; KWord "operandSegmentSizes"; KEqual; KWord
   "array"; KLess; KIntTy Signless 32; KColon; KInt 0; KComma; KInt 0; KGreater; KRBrace; KWord "dfcir.connect"; KLParen; KVal 5; KColon; KType
   "dfcir.stream"; KLess; KType "dfcir.fixed"; KLess; KWord "false"; KComma; KInt (32); KComma; KInt 0; KGreater; KGreater; KComma; KVal 4; KColon;
   KType "dfcir.stream"; KLess; KType "dfcir.fixed"; KLess; KWord "false"; KComma; KInt (32); KComma; KInt 0; KGreater; KGreater; KRParen; KRBrace;
   KRBrace].

(** test/examples/scalar3/scalar3.mlir *)
Definition scalar3_text : list tok :=
  [KWord "module"; KLBrace; KWord "dfcir.kernel"; KStr "Scalar3"; KLBrace; KVal 0; KEqual; KWord "dfcir.input"; KLess; KType "dfcir.fixed"; KLess;
   KWord "false"; KComma; KInt (32); KComma; KInt 0; KGreater; KGreater; KLParen; KStr "y3"; KRParen; KVal 1; KEqual; KWord "dfcir.input"; KLess;
   KType "dfcir.fixed"; KLess; KWord "false"; KComma; KInt (32); KComma; KInt 0; KGreater; KGreater; KLParen; KStr "x3"; KRParen; KVal 2; KEqual;
   KWord "dfcir.mul"; KLSquare; KQuestion; KRSquare; KLParen; KVal 1; KColon; KType "dfcir.stream"; KLess; KType "dfcir.fixed"; KLess; KWord "false";
   KComma; KInt (32); KComma; KInt 0; KGreater; KGreater; KComma; KVal 0; KColon; KType "dfcir.stream"; KLess; KType "dfcir.fixed"; KLess; KWord
   "false"; KComma; KInt (32); KComma; KInt 0; KGreater; KGreater; KRParen; KColon; KType "dfcir.stream"; KLess; KType "dfcir.fixed"; KLess; KWord
   "false"; KComma; KInt (32); KComma; KInt 0; KGreater; KGreater; KLBrace; KWord "latency"; KEqual; KInt (-1); KColon; KIntTy Signless 32; KRBrace;
   KVal 3; KEqual; KWord "dfcir.input"; KLess; KType "dfcir.fixed"; KLess; KWord "false"; KComma; KInt (32); KComma; KInt 0; KGreater; KGreater;
   KLParen; KStr "y2"; KRParen; KVal 4; KEqual; KWord "dfcir.input"; KLess; KType "dfcir.fixed"; KLess; KWord "false"; KComma; KInt (32); KComma; KInt
   0; KGreater; KGreater; KLParen; KStr "x2"; KRParen; KVal 5; KEqual; KWord "dfcir.mul"; KLSquare; KQuestion; KRSquare; KLParen; KVal 4; KColon;
   KType "dfcir.stream"; KLess; KType "dfcir.fixed"; KLess; KWord "false"; KComma; KInt (32); KComma; KInt 0; KGreater; KGreater; KComma; KVal 3;
   KColon; KType "dfcir.stream"; KLess; KType "dfcir.fixed"; KLess; KWord "false"; KComma; KInt (32); KComma; KInt 0; KGreater; KGreater; KRParen;
   KColon; KType "dfcir.stream"; KLess; KType "dfcir.fixed"; KLess; KWord "false"; KComma; KInt (32); KComma; KInt 0; KGreater; KGreater; KLBrace;
   KWord "latency"; KEqual; KInt (-1); KColon; KIntTy Signless 32; KRBrace; KVal 6; KEqual; KWord "dfcir.input"; KLess; KType "dfcir.fixed"; KLess;
   KWord "false"; KComma; KInt (32); KComma; KInt 0; KGreater; KGreater; KLParen; KStr "y1"; KRParen; KVal 7; KEqual; KWord "dfcir.input"; KLess;
   KType "dfcir.fixed"; KLess; KWord "false"; KComma; KInt (32); KComma; KInt 0; KGreater; KGreater; KLParen; KStr "x1"; KRParen; KVal 8; KEqual;
   KWord "dfcir.mul"; KLSquare; KQuestion; KRSquare; KLParen; KVal 7; KColon; KType "dfcir.stream"; KLess; KType "dfcir.fixed"; KLess; KWord "false";
   KComma; KInt (32); KComma; KInt 0; KGreater; KGreater; KComma; KVal 6; KColon; KType "dfcir.stream"; KLess; KType "dfcir.fixed"; KLess; KWord
   "false"; KComma; KInt (32); KComma; KInt 0; KGreater; KGreater; KRParen; KColon; KType "dfcir.stream"; KLess; KType "dfcir.fixed"; KLess; KWord
   "false"; KComma; KInt (32); KComma; KInt 0; KGreater; KGreater; KLBrace; KWord "latency"; KEqual; KInt (-1); KColon; KIntTy Signless 32; KRBrace;
   KVal 9; KEqual; KWord "dfcir.add"; KLSquare; KQuestion; KRSquare; KLParen; KVal 8; KColon; KType "dfcir.stream"; KLess; KType "dfcir.fixed"; KLess;
   KWord "false"; KComma; KInt (32); KComma; KInt 0; KGreater; KGreater; KComma; KVal 5; KColon; KType "dfcir.stream"; KLess; KType "dfcir.fixed";
   KLess; KWord "false"; KComma; KInt (32); KComma; KInt 0; KGreater; KGreater; KRParen; KColon; KType "dfcir.stream"; KLess; KType "dfcir.fixed";
   KLess; KWord "false"; KComma; KInt (32); KComma; KInt 0; KGreater; KGreater; KLBrace; KWord "latency"; KEqual; KInt (-1); KColon; KIntTy Signless
   32; KRBrace; KVal 10; KEqual; KWord "dfcir.add"; KLSquare; KQuestion; KRSquare; KLParen; KVal 9; KColon; KType "dfcir.stream"; KLess; KType
   "dfcir.fixed"; KLess; KWord "false"; KComma; KInt (32); KComma; KInt 0; KGreater; KGreater; KComma; KVal 2; KColon; KType "dfcir.stream"; KLess;
   KType "dfcir.fixed"; KLess; KWord "false"; KComma; KInt (32); KComma; KInt 0; KGreater; KGreater; KRParen; KColon; KType "dfcir.stream"; KLess;
   KType "dfcir.fixed"; KLess; KWord "false"; KComma; KInt (32); KComma; KInt 0; KGreater; KGreater; KLBrace; KWord "latency"; KEqual; KInt (-1);
   KColon; KIntTy Signless 32; KRBrace; KVal 11; KEqual; KWord "dfcir.output"; KLess; KType "dfcir.fixed"; KLess; KWord "false"; KComma; KInt (32);
   KComma; KInt 0; KGreater; KGreater; KLParen; KStr "out"; KRParen; KLBrace; KWord "operandSegmentSizes"; KEqual; KWord "array"; KLess; KIntTy
   Signless 32; KColon; KInt 0; KComma; KInt 0; KGreater; KRBrace; KWord "dfcir.connect"; KLParen; KVal 11; KColon; KType "dfcir.stream"; KLess; KType
   "dfcir.fixed"; KLess; KWord "false"; KComma; KInt (32); KComma; KInt 0; KGreater; KGreater; KComma; KVal 10; KColon; KType "dfcir.stream"; KLess;
   KType "dfcir.fixed"; KLess; KWord "false"; KComma; KInt (32); KComma; KInt 0; KGreater; KGreater; KRParen; KRBrace; KRBrace].

(** test/examples/matrixmul2/matrixmul2.mlir *)
Definition matrixmul2_text : list tok :=
  [KWord "module"; KLBrace; KWord "dfcir.kernel"; KStr "MatrixMul2"; KLBrace; KVal 0; KEqual; KWord "dfcir.input"; KLess; KType "dfcir.fixed"; KLess;
   KWord "false"; KComma; KInt (32); KComma; KInt 0; KGreater; KGreater; KLParen; KStr "y21"; KRParen; KVal 1; KEqual; KWord "dfcir.input"; KLess;
   KType "dfcir.fixed"; KLess; KWord "false"; KComma; KInt (32); KComma; KInt 0; KGreater; KGreater; KLParen; KStr "y12"; KRParen; KVal 2; KEqual;
   KWord "dfcir.input"; KLess; KType "dfcir.fixed"; KLess; KWord "false"; KComma; KInt (32); KComma; KInt 0; KGreater; KGreater; KLParen; KStr "y11";
   KRParen; KVal 3; KEqual; KWord "dfcir.input"; KLess; KType "dfcir.fixed"; KLess; KWord "false"; KComma; KInt (32); KComma; KInt 0; KGreater;
   KGreater; KLParen; KStr "x22"; KRParen; KVal 4; KEqual; KWord "dfcir.mul"; KLSquare; KQuestion; KRSquare; KLParen; KVal 3; KColon; KType
   "dfcir.stream"; KLess; KType "dfcir.fixed"; KLess; KWord "false"; KComma; KInt (32); KComma; KInt 0; KGreater; KGreater; KComma; KVal 0; KColon;
   KType "dfcir.stream"; KLess; KType "dfcir.fixed"; KLess; KWord "false"; KComma; KInt (32); KComma; KInt 0; KGreater; KGreater; KRParen; KColon;
   KType "dfcir.stream"; KLess; KType "dfcir.fixed"; KLess; KWord "false"; KComma; KInt (32); KComma; KInt 0; KGreater; KGreater; KLBrace; KWord
   "latency"; KEqual; KInt (-1); KColon; KIntTy Signless 32; KRBrace; KVal 5; KEqual; KWord "dfcir.input"; KLess; KType "dfcir.fixed"; KLess; KWord
   "false"; KComma; KInt (32); KComma; KInt 0; KGreater; KGreater; KLParen; KStr "y22"; KRParen; KVal 6; KEqual; KWord "dfcir.mul"; KLSquare;
   KQuestion; KRSquare; KLParen; KVal 3; KColon; KType "dfcir.stream"; KLess; KType "dfcir.fixed"; KLess; KWord "false"; KComma; KInt (32); KComma;
   KInt 0; KGreater; KGreater; KComma; KVal 5; KColon; KType "dfcir.stream"; KLess; KType "dfcir.fixed"; KLess; KWord "false"; KComma; KInt (32);
   KComma; KInt 0; KGreater; KGreater; KRParen; KColon; KType "dfcir.stream"; KLess; KType "dfcir.fixed"; KLess; KWord "false"; KComma; KInt (32);
   KComma; KInt 0; KGreater; KGreater; KLBrace; KWord "latency"; KEqual; KInt (-1); KColon; KIntTy Signless 32; KRBrace; KVal 7; KEqual; KWord
   "dfcir.input"; KLess; KType "dfcir.fixed"; KLess; KWord "false"; KComma; KInt (32); KComma; KInt 0; KGreater; KGreater; KLParen; KStr "x21";
   KRParen; KVal 8; KEqual; KWord "dfcir.mul"; KLSquare; KQuestion; KRSquare; KLParen; KVal 7; KColon; KType "dfcir.stream"; KLess; KType
   "dfcir.fixed"; KLess; KWord "false"; KComma; KInt (32); KComma; KInt 0; KGreater; KGreater; KComma; KVal 1; KColon; KType "dfcir.stream"; KLess;
   KType "dfcir.fixed"; KLess; KWord "false"; KComma; KInt (32); KComma; KInt 0; KGreater; KGreater; KRParen; KColon; KType "dfcir.stream"; KLess;
   KType "dfcir.fixed"; KLess; KWord "false"; KComma; KInt (32); KComma; KInt 0; KGreater; KGreater; KLBrace; KWord "latency"; KEqual; KInt (-1);
   KColon; KIntTy Signless 32; KRBrace; KVal 9; KEqual; KWord "dfcir.add"; KLSquare; KQuestion; KRSquare; KLParen; KVal 8; KColon; KType
   "dfcir.stream"; KLess; KType "dfcir.fixed"; KLess; KWord "false"; KComma; KInt (32); KComma; KInt 0; KGreater; KGreater; KComma; KVal 6; KColon;
   KType "dfcir.stream"; KLess; KType "dfcir.fixed"; KLess; KWord "false"; KComma; KInt (32); KComma; KInt 0; KGreater; KGreater; KRParen; KColon;
   KType "dfcir.stream"; KLess; KType "dfcir.fixed"; KLess; KWord "false"; KComma; KInt (32); KComma; KInt 0; KGreater; KGreater; KLBrace; KWord
   "latency"; KEqual; KInt (-1); KColon; KIntTy Signless 32; KRBrace; KVal 10; KEqual; KWord "dfcir.output"; KLess; KType "dfcir.fixed"; KLess; KWord
   "false"; KComma; KInt (32); KComma; KInt 0; KGreater; KGreater; KLParen; KStr "out22"; KRParen; KLBrace; KWord "operandSegmentSizes"; KEqual; KWord
   "array"; KLess; KIntTy Signless 32; KColon; KInt 0; KComma; KInt 0; KGreater; KRBrace; KWord "dfcir.connect"; KLParen; KVal 10; KColon; KType
   "dfcir.stream"; KLess; KType "dfcir.fixed"; KLess; KWord "false"; KComma; KInt (32); KComma; KInt 0; KGreater; KGreater; KComma; KVal 9; KColon;
   KType "dfcir.stream"; KLess; KType "dfcir.fixed"; KLess; KWord "false"; KComma; KInt (32); KComma; KInt 0; KGreater; KGreater; KRParen; KVal 11;
   KEqual; KWord "dfcir.mul"; KLSquare; KQuestion; KRSquare; KLParen; KVal 7; KColon; KType "dfcir.stream"; KLess; KType "dfcir.fixed"; KLess; KWord
   "false"; KComma; KInt (32); KComma; KInt 0; KGreater; KGreater; KComma; KVal 2; KColon; KType "dfcir.stream"; KLess; KType "dfcir.fixed"; KLess;
   KWord "false"; KComma; KInt (32); KComma; KInt 0; KGreater; KGreater; KRParen; KColon; KType "dfcir.stream"; KLess; KType "dfcir.fixed"; KLess;
   KWord "false"; KComma; KInt (32); KComma; KInt 0; KGreater; KGreater; KLBrace; KWord "latency"; KEqual; KInt (-1); KColon; KIntTy Signless 32;
   KRBrace; KVal 12; KEqual; KWord "dfcir.add"; KLSquare; KQuestion; KRSquare; KLParen; KVal 11; KColon; KType "dfcir.stream"; KLess; KType
   "dfcir.fixed"; KLess; KWord "false"; KComma; KInt (32); KComma; KInt 0; KGreater; KGreater; KComma; KVal 4; KColon; KType "dfcir.stream"; KLess;
   KType "dfcir.fixed"; KLess; KWord "false"; KComma; KInt (32); KComma; KInt 0; KGreater; KGreater; KRParen; KColon; KType "dfcir.stream"; KLess;
   KType "dfcir.fixed"; KLess; KWord "false"; KComma; KInt (32); KComma; KInt 0; KGreater; KGreater; KLBrace; KWord "latency"; KEqual; KInt (-1);
   KColon; KIntTy Signless 32; KRBrace; KVal 13; KEqual; KWord "dfcir.output"; KLess; KType "dfcir.fixed"; KLess; KWord "false"; KComma; KInt (32);
   KComma; KInt 0; KGreater; KGreater; KLParen; KStr "out21"; KRParen; KLBrace; KWord "operandSegmentSizes"; KEqual; KWord "array"; KLess; KIntTy
   Signless 32; KColon; KInt 0; KComma; KInt 0; KGreater; KRBrace; KWord "dfcir.connect"; KLParen; KVal 13; KColon; KType "dfcir.stream"; KLess; KType
   "dfcir.fixed"; KLess; KWord "false"; KComma; KInt (32); KComma; KInt 0; KGreater; KGreater; KComma; KVal 12; KColon; KType "dfcir.stream"; KLess;
   KType "dfcir.fixed"; KLess; KWord "false"; KComma; KInt (32); KComma; KInt 0; KGreater; KGreater; KRParen; KVal 14; KEqual; KWord "dfcir.input";
   KLess; KType "dfcir.fixed"; KLess; KWord "false"; KComma; KInt (32); KComma; KInt 0; KGreater; KGreater; KLParen; KStr "x12"; KRParen; KVal 15;
   KEqual; KWord "dfcir.mul"; KLSquare; KQuestion; KRSquare; KLParen; KVal 14; KColon; KType "dfcir.stream"; KLess; KType "dfcir.fixed"; KLess; KWord
   "false"; KComma; KInt (32); KComma; KInt 0; KGreater; KGreater; KComma; KVal 5; KColon; KType "dfcir.stream"; KLess; KType "dfcir.fixed"; KLess;
   KWord "false"; KComma; KInt (32); KComma; KInt 0; KGreater; KGreater; KRParen; KColon; KType "dfcir.stream"; KLess; KType "dfcir.fixed"; KLess;
   KWord "false"; KComma; KInt (32); KComma; KInt 0; KGreater; KGreater; KLBrace; KWord "latency"; KEqual; KInt (-1); KColon; KIntTy Signless 32;
   KRBrace; KVal 16; KEqual; KWord "dfcir.mul"; KLSquare; KQuestion; KRSquare; KLParen; KVal 14; KColon; KType "dfcir.stream"; KLess; KType
   "dfcir.fixed"; KLess; KWord "false"; KComma; KInt (32); KComma; KInt 0; KGreater; KGreater; KComma; KVal 0; KColon; KType "dfcir.stream"; KLess;
   KType "dfcir.fixed"; KLess; KWord "false"; KComma; KInt (32); KComma; KInt 0; KGreater; KGreater; KRParen; KColon; KType "dfcir.stream"; KLess;
   KType "dfcir.fixed"; KLess; KWord "false"; KComma; KInt (32); KComma; KInt 0; KGreater; KGreater; KLBrace; KWord "latency"; KEqual; KInt (-1);
   KColon; KIntTy Signless 32; KRBrace; KVal 17; KEqual; KWord "dfcir.input"; KLess; KType "dfcir.fixed"; KLess; KWord "false"; KComma; KInt (32);
   KComma; KInt 0; KGreater; KGreater; KLParen; KStr "x11"; KRParen; KVal 18; KEqual; KWord "dfcir.mul"; KLSquare; KQuestion; KRSquare; KLParen; KVal
   17; KColon; KType "dfcir.stream"; KLess; KType "dfcir.fixed"; KLess; KWord "false"; KComma; KInt (32); KComma; KInt 0; KGreater; KGreater; KComma;
   KVal 1; KColon; KType "dfcir.stream"; KLess; KType "dfcir.fixed"; KLess; KWord "false"; KComma; KInt (32); KComma; KInt 0; KGreater; KGreater;
   KRParen; KColon; KType "dfcir.stream"; KLess; KType "dfcir.fixed"; KLess; KWord "false"; KComma; KInt (32); KComma; KInt 0; KGreater; KGreater;
   KLBrace; KWord "latency"; KEqual; KInt (-1); KColon; KIntTy Signless 32; KRBrace; KVal 19; KEqual; KWord "dfcir.add"; KLSquare; KQuestion;
   KRSquare; KLParen; KVal 18; KColon; KType "dfcir.stream"; KLess; KType "dfcir.fixed"; KLess; KWord "false"; KComma; KInt (32); KComma; KInt 0;
   KGreater; KGreater; KComma; KVal 15; KColon; KType "dfcir.stream"; KLess; KType "dfcir.fixed"; KLess; KWord "false"; KComma; KInt (32); KComma;
   KInt 0; KGreater; KGreater; KRParen; KColon; KType "dfcir.stream"; KLess; KType "dfcir.fixed"; KLess; KWord "false"; KComma; KInt (32); KComma;
   KInt 0; KGreater; KGreater; KLBrace; KWord "latency"; KEqual; KInt (-1); KColon; KIntTy Signless 32; KRBrace; KVal 20; KEqual; KWord
   "dfcir.output"; KLess; KType "dfcir.fixed"; KLess; KWord "false"; KComma; KInt (32); KComma; KInt 0; KGreater; KGreater; KLParen; KStr "out12";
   KRParen; KLBrace; KWord "operandSegmentSizes"; KEqual; KWord "array"; KLess; KIntTy Signless 32; KColon; KInt 0; KComma; KInt 0; KGreater; KRBrace;
   KWord "dfcir.connect"; KLParen; KVal 20; KColon; KType "dfcir.stream"; KLess; KType "dfcir.fixed"; KLess; KWord "false"; KComma; KInt (32); KComma;
   KInt 0; KGreater; KGreater; KComma; KVal 19; KColon; KType "dfcir.stream"; KLess; KType "dfcir.fixed"; KLess; KWord "false"; KComma; KInt (32);
   KComma; KInt 0; KGreater; KGreater; KRParen; KVal 21; KEqual; KWord "dfcir.mul"; KLSquare; KQuestion; KRSquare; KLParen; KVal 17; KColon; KType
   "dfcir.stream"; KLess; KType "dfcir.fixed"; KLess; KWord "false"; KComma; KInt (32); KComma; KInt 0; KGreater; KGreater; KComma; KVal 2; KColon;
   KType "dfcir.stream"; KLess; KType "dfcir.fixed"; KLess; KWord "false"; KComma; KInt (32); KComma; KInt 0; KGreater; KGreater; KRParen; KColon;
   KType "dfcir.stream"; KLess; KType "dfcir.fixed"; KLess; KWord "false"; KComma; KInt (32); KComma; KInt 0; KGreater; KGreater; KLBrace; KWord
   "latency"; KEqual; KInt (-1); KColon; KIntTy Signless 32; KRBrace; KVal 22; KEqual; KWord "dfcir.add"; KLSquare; KQuestion; KRSquare; KLParen; KVal
   21; KColon; KType "dfcir.stream"; KLess; KType "dfcir.fixed"; KLess; KWord "false"; KComma; KInt (32); KComma; KInt 0; KGreater; KGreater; KComma;
   KVal 16; KColon; KType "dfcir.stream"; KLess; KType "dfcir.fixed"; KLess; KWord "false"; KComma; KInt (32); KComma; KInt 0; KGreater; KGreater;
   KRParen; KColon; KType "dfcir.stream"; KLess; KType "dfcir.fixed"; KLess; KWord "false"; KComma; KInt (32); KComma; KInt 0; KGreater; KGreater;
   KLBrace; KWord "latency"; KEqual; KInt (-1); KColon; KIntTy Signless 32; KRBrace; KVal 23; KEqual; KWord "dfcir.output"; KLess; KType
   "dfcir.fixed"; KLess; KWord "false"; KComma; KInt (32); KComma; KInt 0; KGreater; KGreater; KLParen; KStr "out11"; KRParen; KLBrace; KWord
   "operandSegmentSizes"; KEqual; KWord "array"; KLess; KIntTy Signless 32; KColon; KInt 0; KComma; KInt 0; KGreater; KRBrace; KWord "dfcir.connect";
   KLParen; KVal 23; KColon; KType "dfcir.stream"; KLess; KType "dfcir.fixed"; KLess; KWord "false"; KComma; KInt (32); KComma; KInt 0; KGreater;
   KGreater; KComma; KVal 22; KColon; KType "dfcir.stream"; KLess; KType "dfcir.fixed"; KLess; KWord "false"; KComma; KInt (32); KComma; KInt 0;
   KGreater; KGreater; KRParen; KRBrace; KRBrace].

Local Open Scope nat_scope.
Definition u32_t := TFixed false 32 0.
(** examples/polynomial2/polynomial2.h:14-35 *)
Definition polynomial2 : list cmd :=
  [ CType u32_t; CInput 0 false "x" 0; CBin MUL 1 1; CBin ADD 2 1; CBin ADD 5 1; COutput 0 false "out" 0; CConnect 11 8 ].
(** examples/addconst/addconst.h:14-36 *)
Definition addconst : list cmd :=
  [ CType u32_t; CInput 0 false "x" 0; CConst 0 5%Z; CBin ADD 1 1; CBin ADD 3 2; CBin ADD 6 1; COutput 0 false "out" 0; CConnect 12 9 ].
(** examples/movingsum/movingsum.h:14-36 *)
Definition movingsum : list cmd :=
  [ CType u32_t; CInput 0 false "x" 0; COffset 0 1 (-1)%Z; COffset 0 1 1%Z; CBin ADD 2 1; CBin ADD 6 4; COutput 0 false "out" 0; CConnect 12 9 ].
(** examples/scalar3/scalar3.h:14-44 *)
Definition scalar3 : list cmd :=
  [ CType u32_t; CInput 0 false "x1" 0; CInput 0 false "y1" 0; CInput 0 false "x2" 0; CInput 0 false "y2" 0; CInput 0 false "x3" 0; CInput 0 false "y3" 0;
    CBin MUL 1 2; CBin MUL 3 4; CBin MUL 5 6; CBin ADD 7 10; CBin ADD 16 13; COutput 0 false "out" 0; CConnect 22 19 ].
(** examples/matrixmul2/matrixmul2.h:14-61 *)
Definition matrixmul2 : list cmd :=
  [ CType u32_t; CInput 0 false "x11" 0; CInput 0 false "x12" 0; CInput 0 false "x21" 0; CInput 0 false "x22" 0;
    CInput 0 false "y11" 0; CInput 0 false "y12" 0; CInput 0 false "y21" 0; CInput 0 false "y22" 0;
    CBin MUL 1 5; CBin MUL 2 7; CBin MUL 1 6; CBin MUL 2 8; CBin MUL 3 5; CBin MUL 4 7; CBin MUL 3 6; CBin MUL 4 8;
    CBin ADD 9 12; CBin ADD 15 18; CBin ADD 21 24; CBin ADD 27 30;
    COutput 0 false "out11" 0; CConnect 45 33; COutput 0 false "out12" 0; CConnect 47 36;
    COutput 0 false "out21" 0; CConnect 49 39; COutput 0 false "out22" 0; CConnect 51 42 ].
