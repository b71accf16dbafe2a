(** * The textual form of DFCIR: printer and parser of the dialect.

    Models the [print] and [parse] methods of DFCIROperations.cpp:14-556 and of
    DFCIROperations.td:176-242 (unary) and :279-360 (binary), the declarative formats of
    DFCIROperations.td (kernel :34, connect :117, convert :379, and/or/xor/not :417-459,
    bits :463, cat :475, shifts :486) and DFCIRTypes.td:44-129, for all operations of the
    dialect.  A text is a list of tokens: white space, the spelling of tokens and the escapes
    of strings are MLIR's.  From MLIR: values are named [%n] in the order of their definitions;
    an attribute that is an inherent attribute of the operation replaces the one set by
    [parse] (Operation::setAttrs); a value must be defined before it is used (dominance).
    Simplified: types are streams, scalars and constants of primitive types (no [complex],
    no [cchain]); no discardable attributes; constants are integer attributes (all that
    dfcir_builder.cpp makes).  A module that does not pass the verifier is printed by MLIR
    in its generic form, which is not modelled. *)
From Coq Require Import ZArith Bool String.
From stdpp Require Import gmap list.
From Verif Require Import Types Graph GraphSpec Verify.
Local Open Scope Z_scope.

(** ** Attributes and operations *)
(** IntegerAttr: an integer type and the bits of the value ([0 <= ia_bits < 2 ^ ia_width]) *)
Inductive isgn := Signless | SignedInt | UnsignedInt.
Record iattr := mkIA { ia_sgn : isgn; ia_width : Z; ia_bits : Z }.

Inductive abin := ALess | ALessEq | AGreater | AGreaterEq | AEq | ANotEq | AAdd | ASub | AMul | ARem | AMod | ADiv.
Inductive alogic := AAnd | AOr | AXor | ACat.

(** one constructor per operation of DFCIROperations.td with its attributes, operands
    (numbers of values) and, where it is not determined, its result type *)
Inductive aop :=
| OScalarInput (t : dftype) (name : string)
| OScalarOutput (t : dftype) (name : string) (stream : option nat)
| OInput (t : dftype) (name : string) (ctrl : option nat)
| OOutput (t : dftype) (name : string) (ctrl stream : option nat)
| OConstant (t : dftype) (v : iattr)
| OLatency (lat : iattr) (a : nat) (r : vtype)
| OUnary (cast : bool) (lat : iattr) (a : nat) (r : vtype)
| OBinary (o : abin) (lat : iattr) (a b : nat) (r : vtype)
| OOffset (a : nat) (off : iattr) (r : vtype)
| OConvert (a : nat) (r : vtype)
| OMux (c : nat) (vars : list nat) (r : vtype)
| OLogic (o : alogic) (a b : nat) (r : vtype)
| ONot (a : nat) (r : vtype)
| OBits (a : nat) (left right : iattr) (r : vtype)
| OShift (left : bool) (a : nat) (bits : iattr) (r : vtype)
| OCounter (t : dftype) (max : nat).
Inductive astmt := ADef (v : nat) (o : aop) | AConnect (d s : nat).
Definition aprog := list astmt.

Definition result_type (o : aop) : vtype :=
  match o with
  | OScalarInput t _ | OScalarOutput t _ _ => (VScalar, t)
  | OInput t _ _ | OOutput t _ _ _ | OCounter t _ => (VStream, t)
  | OConstant t _ => (VConst, t)
  | OLatency _ _ r | OUnary _ _ _ r | OBinary _ _ _ _ r | OOffset _ _ r | OConvert _ r | OMux _ _ r
  | OLogic _ _ _ r | ONot _ r | OBits _ _ _ r | OShift _ _ _ r => r
  end.

(** the mnemonics of DFCIROperations.td ([rem] is spelled [red], :409) *)
Definition bin_name (o : abin) : string :=
  match o with
  | ALess => "dfcir.less" | ALessEq => "dfcir.lessEq" | AGreater => "dfcir.greater" | AGreaterEq => "dfcir.greaterEq"
  | AEq => "dfcir.eq" | ANotEq => "dfcir.notEq" | AAdd => "dfcir.add" | ASub => "dfcir.sub" | AMul => "dfcir.mul"
  | ARem => "dfcir.red" | AMod => "dfcir.mod" | ADiv => "dfcir.div"
  end.
Definition logic_name (o : alogic) : string :=
  match o with AAnd => "dfcir.and" | AOr => "dfcir.or" | AXor => "dfcir.xor" | ACat => "dfcir.cat" end.
Definition mnemonic (o : aop) : string :=
  match o with
  | OScalarInput _ _ => "dfcir.scalarInput" | OScalarOutput _ _ _ => "dfcir.scalarOutput"
  | OInput _ _ _ => "dfcir.input" | OOutput _ _ _ _ => "dfcir.output" | OConstant _ _ => "dfcir.constant"
  | OLatency _ _ _ => "dfcir.latency" | OUnary false _ _ _ => "dfcir.neg" | OUnary true _ _ _ => "dfcir.cast"
  | OBinary o _ _ _ _ => bin_name o | OOffset _ _ _ => "dfcir.offset" | OConvert _ _ => "dfcir.convert"
  | OMux _ _ _ => "dfcir.mux" | OLogic o _ _ _ => logic_name o | ONot _ _ => "dfcir.not"
  | OBits _ _ _ _ => "dfcir.bits" | OShift true _ _ _ => "dfcir.shl" | OShift false _ _ _ => "dfcir.shr"
  | OCounter _ _ => "dfcir.simpleCounter"
  end.

(** ** Tokens *)
Inductive tok :=
| KVal (n : nat)              (** [%n] *)
| KWord (s : string)          (** a bare identifier *)
| KType (s : string)          (** [!dfcir.fixed] *)
| KIntTy (s : isgn) (w : Z)   (** [i32], [si8], [ui8] *)
| KInt (z : Z) | KStr (s : string)
| KLess | KGreater | KLParen | KRParen | KLSquare | KRSquare | KLBrace | KRBrace
| KComma | KColon | KEqual | KQuestion
| KUnknown.                   (** [<<UNKNOWN SSA VALUE>>] *)

(** ** Printer *)
(** the assembly formats of DFCIRTypes.td:57, 75, 90, 116, 126, 136 *)
Definition print_dftype (t : dftype) : list tok :=
  match t with
  | TFixed s i f => [KType "dfcir.fixed"; KLess; KWord (if s then "true" else "false"); KComma; KInt i; KComma; KInt f; KGreater]
  | TFloat e f => [KType "dfcir.float"; KLess; KInt e; KComma; KInt f; KGreater]
  | TRaw n => [KType "dfcir.rawbits"; KLess; KInt n; KGreater]
  end.
Definition kind_name (k : vkind) : string :=
  match k with VStream => "dfcir.stream" | VScalar => "dfcir.scalar" | VConst => "dfcir.const" end.
Definition print_vtype (v : vtype) : list tok := KType (kind_name (fst v)) :: KLess :: print_dftype (snd v) ++ [KGreater].

(** AsmPrinter on an IntegerAttr: one-bit signless values are [true]/[false] without a type *)
Definition is_i1 (a : iattr) : bool := match ia_sgn a with Signless => ia_width a =? 1 | _ => false end.
Definition sint (a : iattr) : Z := if Z.testbit (ia_bits a) (ia_width a - 1) then ia_bits a - 2 ^ ia_width a else ia_bits a.
Definition printed_value (a : iattr) : Z := match ia_sgn a with UnsignedInt => ia_bits a | _ => sint a end.
Definition print_iattr (a : iattr) : list tok :=
  if is_i1 a then [KWord (if ia_bits a =? 0 then "false" else "true")]
  else [KInt (printed_value a); KColon; KIntTy (ia_sgn a) (ia_width a)].

(** the values of a program: number in the text and type *)
Notation names_env := (gmap nat (nat * vtype)).
Fixpoint numbering (n : nat) (P : aprog) : names_env :=
  match P with
  | [] => ∅
  | ADef v o :: P' => <[v := (n, result_type o)]> (numbering (S n) P')
  | AConnect _ _ :: P' => numbering n P'
  end.

Section Print.
Variable E : names_env.
Definition print_val (v : nat) : list tok := match E !! v with Some (n, _) => [KVal n] | None => [KUnknown] end.
Definition print_ty (v : nat) : list tok := match E !! v with Some (_, t) => print_vtype t | None => [KUnknown] end.
(** [%x : type] *)
Definition print_arg (v : nat) : list tok := print_val v ++ KColon :: print_ty v.
(** [printOptionalAttrDict] *)
Definition print_lat (l : iattr) : list tok := KLBrace :: KWord "latency" :: KEqual :: print_iattr l ++ [KRBrace].
(** the operation's print method: what follows the mnemonic *)
Definition print_latency (l : iattr) : list tok :=
  KLSquare :: (if (sint l + 1) mod 2 ^ 32 =? 0 then [KQuestion] else print_iattr l) ++ [KRSquare].
Definition print_op (o : aop) : list tok :=
  match o with
  | OScalarInput t s => KLess :: print_dftype t ++ [KGreater; KLParen; KStr s; KRParen]                     (** DFCIROperations.cpp:42-51 *)
  | OScalarOutput t s i =>                                                                                  (** :109-124 *)
      KLess :: print_dftype t ++ [KGreater; KLParen; KStr s; KRParen]
      ++ match i with Some v => KLess :: KEqual :: print_arg v | None => [] end
  | OInput t s c =>                                                                                         (** :186-200 *)
      KLess :: print_dftype t ++ [KGreater; KLParen; KStr s]
      ++ match c with Some v => KComma :: print_arg v | None => [] end ++ [KRParen]
  | OOutput t s c i =>                                                                                      (** :290-311; the elided name is not that of the attribute *)
      KLess :: print_dftype t ++ [KGreater; KLParen; KStr s]
      ++ match c with Some v => KComma :: print_arg v | None => [] end ++ [KRParen]
      ++ match i with Some v => KLess :: KEqual :: print_arg v | None => [] end
      ++ [KLBrace; KWord "operandSegmentSizes"; KEqual; KWord "array"; KLess; KIntTy Signless 32; KColon;
          KInt (if c then 1 else 0); KComma; KInt (if i then 1 else 0); KGreater; KRBrace]
  | OConstant t v => KLess :: print_dftype t ++ KGreater :: print_iattr v                                   (** :397-405 *)
  | OLatency l a r => KLSquare :: print_iattr l ++ [KRSquare; KLParen] ++ print_arg a ++ [KRParen; KColon] ++ print_vtype r ++ print_lat l  (** :494-500 *)
  | OUnary _ l a r => print_latency l ++ [KLParen] ++ print_arg a ++ [KRParen; KColon] ++ print_vtype r ++ print_lat l      (** td:226-240 *)
  | OBinary _ l a b r => print_latency l ++ [KLParen] ++ print_arg a ++ [KComma] ++ print_arg b ++ [KRParen; KColon] ++ print_vtype r ++ print_lat l (** td:343-358 *)
  | OOffset a f r => KLParen :: print_val a ++ [KComma] ++ print_iattr f ++ [KRParen; KColon] ++ print_vtype r            (** :447-455 *)
  | OConvert a r => KLParen :: print_arg a ++ [KRParen; KColon] ++ print_vtype r
  | OMux c vs r =>                                                                                          (** :355-370 *)
      KLParen :: print_arg c
      ++ flat_map (fun v => KComma :: print_val v
           ++ match E !! v with Some (_, t) => if vtype_eqb t r then [] else KColon :: print_vtype t | None => [KUnknown] end) vs
      ++ [KRParen; KColon] ++ print_vtype r
  | OLogic _ a b r => KLParen :: print_arg a ++ [KComma] ++ print_arg b ++ [KRParen; KColon] ++ print_vtype r
  | ONot a r => KLParen :: print_arg a ++ [KRParen; KColon] ++ print_vtype r
  | OBits a l x r => KLParen :: print_arg a ++ [KComma] ++ print_iattr l ++ [KComma] ++ print_iattr x ++ [KRParen; KColon] ++ print_vtype r
  | OShift _ a n r => KLParen :: print_arg a ++ [KComma] ++ print_iattr n ++ [KRParen; KColon] ++ print_vtype r
  | OCounter t m => KLess :: print_dftype t ++ [KGreater; KLParen] ++ print_arg m ++ [KRParen]              (** :545-553 *)
  end.
Definition print_stmt (s : astmt) : list tok :=
  match s with
  | ADef v o => print_val v ++ [KEqual; KWord (mnemonic o)] ++ print_op o
  | AConnect d s => KWord "dfcir.connect" :: KLParen :: print_arg d ++ [KComma] ++ print_arg s ++ [KRParen]
  end.
End Print.
(** a module with one kernel *)
Definition print_module (name : string) (P : aprog) : list tok :=
  [KWord "module"; KLBrace; KWord "dfcir.kernel"; KStr name; KLBrace]
  ++ flat_map (print_stmt (numbering 0 P)) P ++ [KRBrace; KRBrace].

(** ** Parser *)
Definition parser (A : Type) := list tok -> option (A * list tok).
Definition tok_eqb (a b : tok) : bool :=
  match a, b with
  | KLess, KLess | KGreater, KGreater | KLParen, KLParen | KRParen, KRParen | KLSquare, KLSquare | KRSquare, KRSquare
  | KLBrace, KLBrace | KRBrace, KRBrace | KComma, KComma | KColon, KColon | KEqual, KEqual | KQuestion, KQuestion => true
  | KWord s, KWord s' => String.eqb s s'
  | _, _ => false
  end.
(** [parseLess()] ...: the next token must be [k]; [parseOptionalLess()] ...: may be *)
Definition expect (k : tok) : parser unit := fun l =>
  match l with x :: l' => if tok_eqb x k then Some (tt, l') else None | [] => None end.
Definition optional (k : tok) : parser bool := fun l =>
  match l with x :: l' => if tok_eqb x k then Some (true, l') else Some (false, l) | [] => Some (false, l) end.
Definition pbind {A B} (p : parser A) (f : A -> parser B) : parser B := fun l =>
  match p l with Some (a, l') => f a l' | None => None end.
Definition pret {A} (a : A) : parser A := fun l => Some (a, l).
Definition pfail {A} : parser A := fun _ => None.
Local Notation "'let*' x := p 'in' q" := (pbind p (fun x => q)) (at level 200, x pattern, right associativity).
Local Notation "p ;> q" := (pbind p (fun _ => q)) (at level 100, q at level 200, right associativity).

Definition p_str : parser string := fun l => match l with KStr s :: l' => Some (s, l') | _ => None end.
(** a parameter of type [unsigned] *)
Definition p_unsigned : parser Z := fun l =>
  match l with KInt z :: l' => if (0 <=? z) && (z <? 2 ^ 32) then Some (z, l') else None | _ => None end.
Definition p_bool : parser bool := fun l =>
  match l with
  | KWord s :: l' => if String.eqb s "true" then Some (true, l') else if String.eqb s "false" then Some (false, l') else None
  | _ => None
  end.
(** parseType of a primitive type, and of a stream, scalar or constant *)
Definition p_dftype : parser dftype := fun l =>
  match l with
  | KType s :: l' =>
      if String.eqb s "dfcir.fixed" then
        (expect KLess ;> let* b := p_bool in expect KComma ;> let* i := p_unsigned in expect KComma ;>
         let* f := p_unsigned in expect KGreater ;> pret (TFixed b i f)) l'
      else if String.eqb s "dfcir.float" then
        (expect KLess ;> let* e := p_unsigned in expect KComma ;> let* f := p_unsigned in expect KGreater ;> pret (TFloat e f)) l'
      else if String.eqb s "dfcir.rawbits" then
        (expect KLess ;> let* n := p_unsigned in expect KGreater ;> pret (TRaw n)) l'
      else None
  | _ => None
  end.
Definition p_vtype : parser vtype := fun l =>
  match l with
  | KType s :: l' =>
      let body k := (expect KLess ;> let* t := p_dftype in expect KGreater ;> pret (k, t)) l' in
      if String.eqb s "dfcir.stream" then body VStream
      else if String.eqb s "dfcir.scalar" then body VScalar
      else if String.eqb s "dfcir.const" then body VConst
      else None
  | _ => None
  end.

(** an integer attribute; the range check is buildAttributeAPInt of MLIR's attribute parser.
    Without a type it is an i64. *)
Definition build_int (z : Z) (s : isgn) (w : Z) : option iattr :=
  let m := Z.abs z in
  if 2 ^ w <=? m then None
  else if z <? 0 then
    match s with
    | UnsignedInt => None
    | _ => let r := 2 ^ w - m in if Z.testbit r (w - 1) then Some (mkIA s w r) else None
    end
  else match s with
       | SignedInt => if Z.testbit m (w - 1) then None else Some (mkIA s w m)
       | _ => Some (mkIA s w m)
       end.
Definition p_iattr : parser iattr := fun l =>
  match l with
  | KWord s :: l' =>
      if String.eqb s "true" then Some (mkIA Signless 1 1, l')
      else if String.eqb s "false" then Some (mkIA Signless 1 0, l') else None
  | KInt z :: KColon :: KIntTy s w :: l' => match build_int z s w with Some a => Some (a, l') | None => None end
  | KInt z :: l' => match build_int z Signless 64 with Some a => Some (a, l') | None => None end
  | _ => None
  end.

(** attribute dictionaries: values are integer attributes or arrays of i32 *)
Inductive attr := AInt (a : iattr) | AArr (l : list Z).
Fixpoint p_ints (fuel : nat) : parser (list Z) := fun l =>
  match fuel with
  | O => None
  | S f =>
      match l with
      | KInt z :: KComma :: l' => (let* zs := p_ints f in pret (z :: zs)) l'
      | KInt z :: KGreater :: l' => Some ([z], l')
      | _ => None
      end
  end.
Definition p_attr : parser attr := fun l =>
  match l with
  | KWord s :: KLess :: KIntTy Signless 32 :: KColon :: l' =>
      if String.eqb s "array" then (let* zs := p_ints (length l') in pret (AArr zs)) l' else None
  | _ => (let* a := p_iattr in pret (AInt a)) l
  end.
Fixpoint p_attrs (fuel : nat) : parser (list (string * attr)) := fun l =>
  match fuel with
  | O => None
  | S f =>
      match l with
      | KWord s :: KEqual :: l' =>
          (let* a := p_attr in let* more := optional KComma in
           if more then let* d := p_attrs f in pret ((s, a) :: d) else expect KRBrace ;> pret [(s, a)]) l'
      | _ => None
      end
  end.
(** [parseOptionalAttrDict] *)
Definition p_dict : parser (list (string * attr)) := fun l =>
  match l with
  | KLBrace :: KRBrace :: l' => Some ([], l')
  | KLBrace :: l' => p_attrs (length l') l'
  | _ => Some ([], l)
  end.
Definition dict_int (d : list (string * attr)) (s : string) : option iattr :=
  match List.find (fun p => String.eqb (fst p) s) d with Some (_, AInt a) => Some a | _ => None end.

(** ** Operands: [parseOperand] reads a name, [resolveOperand] needs a value of that type *)
Notation penv := (gmap nat vtype).
Definition p_name : parser nat := fun l => match l with KVal n :: l' => Some (n, l') | _ => None end.
Definition vtype_dec (a b : vtype) : {a = b} + {a <> b}.
Proof. repeat decide equality. Defined.
Section Ops.
Variable G : penv.
Definition resolve1 (n : nat) (t : vtype) : parser unit := fun l =>
  match G !! n with Some t' => if vtype_dec t' t then Some (tt, l) else None | None => None end.
Fixpoint resolve_all (ns : list nat) (ts : list vtype) : parser unit :=
  match ns, ts with
  | [], [] => pret tt
  | n :: ns', t :: ts' => resolve1 n t ;> resolve_all ns' ts'
  | _, _ => pfail
  end.
(** [parseOptionalOperand], [parseColon], [parseOptionalType] *)
Definition p_opt_name : parser (option nat) := fun l => match l with KVal n :: l' => Some (Some n, l') | _ => Some (None, l) end.
Definition p_opt_type : parser (option vtype) := fun l =>
  match l with KType _ :: _ => (let* t := p_vtype in pret (Some t)) l | _ => Some (None, l) end.
Definition p_opt_arg : parser (option nat * option vtype) :=
  let* n := p_opt_name in expect KColon ;> let* t := p_opt_type in pret (n, t).
Definition resolve_opt (x : option nat * option vtype) : parser unit :=
  resolve_all (match fst x with Some n => [n] | None => [] end) (match snd x with Some t => [t] | None => [] end).
Definition p_arg : parser (nat * vtype) := let* n := p_name in expect KColon ;> let* t := p_vtype in pret (n, t).

(** [ '<' type '>' '(' name ] *)
Definition p_port : parser (dftype * string) :=
  expect KLess ;> let* t := p_dftype in expect KGreater ;> expect KLParen ;> let* s := p_str in pret (t, s).
Definition p_opt_ctrl : parser (option nat * option vtype) :=
  let* c := optional KComma in if c then p_opt_arg else pret (None, None).
Definition p_opt_stream : parser (option nat * option vtype) :=
  let* c := optional KLess in if c then expect KEqual ;> p_opt_arg else pret (None, None).
(** the latency in brackets, td:190-205; the attribute dictionary replaces it *)
Definition minus_one : iattr := mkIA Signless 32 (2 ^ 32 - 1).
Definition p_latency : parser iattr :=
  expect KLSquare ;> let* q := optional KQuestion in
  let* a := (if q then pret minus_one else p_iattr) in expect KRSquare ;> pret a.
Definition set_latency (l : iattr) (d : list (string * attr)) : iattr := default l (dict_int d "latency").

(** MuxOp::parse, DFCIROperations.cpp:317-353: at least one input; a missing type is that of
    the result *)
Fixpoint p_mux_vars (fuel : nat) : parser (list (nat * option vtype)) := fun l =>
  match fuel with
  | O => None
  | S f =>
      (let* n := p_name in let* c := optional KColon in
       let* t := (if c then let* t := p_vtype in pret (Some t) else pret None) in
       let* more := optional KComma in
       if more then let* r := p_mux_vars f in pret ((n, t) :: r) else pret [(n, t)]) l
  end.
Definition p_mux : parser aop := fun l =>
  (expect KLParen ;> let* c := p_arg in expect KComma ;> let* vs := p_mux_vars (length l) in
   expect KRParen ;> expect KColon ;> let* r := p_vtype in p_dict ;>
   resolve1 (fst c) (snd c) ;> resolve_all (map fst vs) (map (fun v => default r (snd v)) vs) ;>
   pret (OMux (fst c) (map fst vs) r)) l.

(** [ '(' arg ',' arg ')' ':' type ] and the like *)
Definition p_result : parser vtype := expect KRParen ;> expect KColon ;> p_vtype.
Definition p_unary_body : parser (nat * vtype * list (string * attr)) :=
  expect KLParen ;> let* a := p_arg in let* r := p_result in let* d := p_dict in
  resolve1 (fst a) (snd a) ;> pret (fst a, r, d).
Definition p_binary_body : parser (nat * nat * vtype * list (string * attr)) :=
  expect KLParen ;> let* a := p_arg in expect KComma ;> let* b := p_arg in let* r := p_result in let* d := p_dict in
  resolve_all [fst a; fst b] [snd a; snd b] ;> pret (fst a, fst b, r, d).

Definition p_op (s : string) : parser aop :=
  let binary o := let* l := p_latency in let* (a, b, r, d) := p_binary_body in pret (OBinary o (set_latency l d) a b r) in
  let logic o := let* (a, b, r, _) := p_binary_body in pret (OLogic o a b r) in
  let unary o := let* l := p_latency in let* (a, r, d) := p_unary_body in pret (OUnary o (set_latency l d) a r) in
  let shift left := expect KLParen ;> let* a := p_arg in expect KComma ;> let* n := p_iattr in
                    let* r := p_result in p_dict ;> resolve1 (fst a) (snd a) ;> pret (OShift left (fst a) n r) in
  if String.eqb s "dfcir.scalarInput" then                                   (** DFCIROperations.cpp:14-40 *)
    let* (t, n) := p_port in expect KRParen ;> p_dict ;> pret (OScalarInput t n)
  else if String.eqb s "dfcir.scalarOutput" then                             (** :57-107 *)
    let* (t, n) := p_port in expect KRParen ;> let* i := p_opt_stream in p_dict ;>
    resolve_opt i ;> pret (OScalarOutput t n (fst i))
  else if String.eqb s "dfcir.input" then                                    (** :130-184 *)
    let* (t, n) := p_port in let* c := p_opt_ctrl in expect KRParen ;> p_dict ;>
    resolve_opt c ;> pret (OInput t n (fst c))
  else if String.eqb s "dfcir.output" then                                   (** :206-288 *)
    let* (t, n) := p_port in let* c := p_opt_ctrl in expect KRParen ;> let* i := p_opt_stream in p_dict ;>
    resolve_opt c ;> resolve_opt i ;> pret (OOutput t n (fst c) (fst i))
  else if String.eqb s "dfcir.constant" then                                 (** :372-395 *)
    expect KLess ;> let* t := p_dftype in expect KGreater ;> let* v := p_iattr in p_dict ;> pret (OConstant t v)
  else if String.eqb s "dfcir.latency" then                                  (** :457-492 *)
    expect KLSquare ;> let* l := p_iattr in expect KRSquare ;>
    let* (a, r, d) := p_unary_body in pret (OLatency (set_latency l d) a r)
  else if String.eqb s "dfcir.neg" then unary false                          (** td:177-224 *)
  else if String.eqb s "dfcir.cast" then unary true
  else if String.eqb s "dfcir.less" then binary ALess                        (** td:280-341 *)
  else if String.eqb s "dfcir.lessEq" then binary ALessEq
  else if String.eqb s "dfcir.greater" then binary AGreater
  else if String.eqb s "dfcir.greaterEq" then binary AGreaterEq
  else if String.eqb s "dfcir.eq" then binary AEq
  else if String.eqb s "dfcir.notEq" then binary ANotEq
  else if String.eqb s "dfcir.add" then binary AAdd
  else if String.eqb s "dfcir.sub" then binary ASub
  else if String.eqb s "dfcir.mul" then binary AMul
  else if String.eqb s "dfcir.red" then binary ARem
  else if String.eqb s "dfcir.mod" then binary AMod
  else if String.eqb s "dfcir.div" then binary ADiv
  else if String.eqb s "dfcir.offset" then                                   (** :407-445: the operand has the type of the result, a stream *)
    expect KLParen ;> let* a := p_name in expect KComma ;> let* f := p_iattr in expect KRParen ;> p_dict ;>
    expect KColon ;> let* r := p_vtype in
    if is_stream_ty r then resolve1 a r ;> pret (OOffset a f r) else pfail
  else if String.eqb s "dfcir.convert" then
    expect KLParen ;> let* a := p_arg in expect KRParen ;> p_dict ;> expect KColon ;> let* r := p_vtype in
    resolve1 (fst a) (snd a) ;> pret (OConvert (fst a) r)
  else if String.eqb s "dfcir.mux" then p_mux
  else if String.eqb s "dfcir.and" then logic AAnd
  else if String.eqb s "dfcir.or" then logic AOr
  else if String.eqb s "dfcir.xor" then logic AXor
  else if String.eqb s "dfcir.cat" then logic ACat
  else if String.eqb s "dfcir.not" then let* (a, r, _) := p_unary_body in pret (ONot a r)
  else if String.eqb s "dfcir.bits" then
    expect KLParen ;> let* a := p_arg in expect KComma ;> let* l := p_iattr in expect KComma ;> let* x := p_iattr in
    let* r := p_result in p_dict ;> resolve1 (fst a) (snd a) ;> pret (OBits (fst a) l x r)
  else if String.eqb s "dfcir.shl" then shift true
  else if String.eqb s "dfcir.shr" then shift false
  else if String.eqb s "dfcir.simpleCounter" then                            (** :502-543: the maximum is a scalar *)
    expect KLess ;> let* t := p_dftype in expect KGreater ;> expect KLParen ;> let* m := p_arg in expect KRParen ;> p_dict ;>
    match fst (snd m) with VScalar => resolve1 (fst m) (snd m) ;> pret (OCounter t (fst m)) | _ => pfail end
  else pfail.
End Ops.

(** the body of the kernel: statements up to the closing brace *)
Fixpoint p_body (fuel : nat) (G : penv) : parser aprog := fun l =>
  match fuel with
  | O => None
  | S f =>
      match l with
      | KRBrace :: l' => Some ([], l')
      | KVal n :: KEqual :: KWord s :: l' =>
          match G !! n with
          | Some _ => None                                    (** redefinition *)
          | None => (let* o := p_op G s in let* P := p_body f (<[n := result_type o]> G) in pret (ADef n o :: P)) l'
          end
      | KWord s :: l' =>
          if String.eqb s "dfcir.connect" then
            (expect KLParen ;> let* d := p_arg in expect KComma ;> let* x := p_arg in expect KRParen ;> p_dict ;>
             resolve_all G [fst d; fst x] [snd d; snd x] ;> let* P := p_body f G in pret (AConnect (fst d) (fst x) :: P)) l'
          else None
      | _ => None
      end
  end.
Definition parse_module (l : list tok) : option (string * aprog) :=
  match (expect (KWord "module") ;> expect KLBrace ;> expect (KWord "dfcir.kernel") ;> let* n := p_str in expect KLBrace ;>
         let* P := p_body (length l) ∅ in expect KRBrace ;> pret (n, P)) l with
  | Some (r, []) => Some r
  | _ => None
  end.
