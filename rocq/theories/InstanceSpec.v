(** * What instantiating a sub-kernel requires and means (specification). *)
From Coq Require Import ZArith Bool String.
From stdpp Require Import gmap list.
From Verif Require Import Types Word Value Graph GraphSpec TypingSpec StreamSpec Instance.

(** the named variables (inputs and outputs) of kernel [k], and the one called [s] *)
Definition names (w : world) (k : nat) : list (string * nat) :=
  match w_kern w !! k with Some g => g_names g | None => [] end.
Definition port (w : world) (k : nat) (s : string) (n : nat) : Prop := name_lookup (names w k) s = Some n.
(** operator of a live variable *)
Definition has_op (w : world) (n : nat) (o : opk) : Prop := exists nd, w_nodes w !! n = Some nd /\ n_op nd = o.

(** every name of a kernel denotes a live input or output of that kernel with this name *)
Definition named (w : world) : Prop :=
  forall k s n, (s, n) ∈ names w k -> exists nd, w_nodes w !! n = Some nd /\ n_name nd = s /\ n_meta nd = k /\
    (n_op nd = IN \/ n_op nd = OUT).
(** a variable reads only variables of its own kernel, and constants *)
Definition local (w : world) : Prop :=
  forall m a, a ∈ operands w m -> is_const w a \/ owner w a = owner w m.

(** [v] can be bound to the port [s] of [k], which is the variable [n] *)
Definition input_binding (w : world) (p k v : nat) (s : string) (n : nat) : Prop :=
  port w k s n /\ has_op w n IN /\ operands w n = [] /\ is_Some (w_nodes w !! v) /\ owner w v = p.
Definition output_binding (w : world) (p k v : nat) (s : string) (n : nat) : Prop :=
  port w k s n /\ has_op w n OUT /\ (exists d, operands w n = [d]) /\ readers w n = [] /\
  owner w v = p /\ (has_op w v NONE \/ has_op w v OUT) /\ operands w v = [].
Definition binding_ok (w : world) (p k v : nat) (s : string) (n : nat) : Prop :=
  input_binding w p k v s n \/ output_binding w p k v s n.

(** the bindings of one [instance] call: each names a different port, and a variable that
    is bound to an output is not bound to anything else *)
Record bindings_ok (w : world) (p k : nat) (bs : list (nat * string)) : Prop := {
  bo_diff : p <> k;
  bo_names : NoDup (map snd bs);
  bo_each : forall v s, (v, s) ∈ bs -> exists n, binding_ok w p k v s n;
  bo_targets : forall i j v s v' s', bs !! i = Some (v, s) -> bs !! j = Some (v', s') -> i <> j ->
     (exists n, port w k s n /\ has_op w n OUT) -> v <> v'
}.
(** the whole call: the sub-kernel has just been constructed inside [p], and all its inputs are bound *)
Record instance_ok (w : world) (p k : nat) (bs : list (nat * string)) : Prop := {
  io_bindings : bindings_ok w p k bs;
  io_parent : is_Some (w_kern w !! p);
  io_child : is_Some (w_kern w !! k);
  io_top : w_top w <> Some k;
  io_stack : exists st, w_stack w = k :: st /\ st <> [];
  io_inputs : forall n, has_op w n IN -> owner w n = k -> exists v s, (v, s) ∈ bs /\ port w k s n
}.
(** an output fed directly by an input is bound after that input (otherwise the variable it
    is bound to is left dangling) *)
Definition ordered (w : world) (k : nat) (bs : list (nat * string)) : Prop :=
  forall i j v s v' s' n d, bs !! i = Some (v, s) -> bs !! j = Some (v', s') -> i < j ->
    port w k s n -> has_op w n OUT -> operands w n = [d] -> ~ port w k s' d.

(** the variables an instantiation removes: all bound ports, and placeholders bound to outputs *)
Definition removed (w : world) (k : nat) (bs : list (nat * string)) (m : nat) : Prop :=
  exists v s n, (v, s) ∈ bs /\ port w k s n /\ (m = n \/ m = v /\ has_op w n OUT /\ has_op w v NONE).

(** what the call identifies: a bound input with the variable bound to it, and a variable
    bound to an output with that output *)
Definition link (w : world) (k : nat) (bs : list (nat * string)) (a b : nat) : Prop :=
  exists v s n, (v, s) ∈ bs /\ port w k s n /\ (has_op w n IN /\ a = n /\ b = v \/ has_op w n OUT /\ a = v /\ b = n).
(** the bindings close no cycle: the operands of a variable, and what it is identified
    with, come before it in some order *)
Definition feed_forward (w : world) (k : nat) (bs : list (nat * string)) : Prop :=
  exists rank : nat -> nat, (forall a b, a ∈ operands w b -> rank a < rank b) /\ (forall a b, link w k bs a b -> rank b < rank a).
(** the bound variables have the types of what they are bound to (the code does not check
    this), where raw bits count as an unsigned integer: the type of the input, or of the
    variable that drives the output *)
Definition kind_at (w : world) (n : nat) : option dftype := option_map kind (type_of w n).
Definition types_match (w : world) (k : nat) (bs : list (nat * string)) : Prop :=
  forall v s n, (v, s) ∈ bs -> port w k s n ->
    (has_op w n IN -> kind_at w v = kind_at w n) /\
    (has_op w n OUT -> has_op w v NONE -> forall d, operands w n = [d] -> kind_at w v = kind_at w d).

(** ** The values: a variable bound to a port and the port have the same value *)
(** [R] satisfies the rules of [kval], where a linked input has the value of what it is linked to *)
Record rules {V} (I : interp V) (L : nat -> nat -> Prop) (w : world) (R : nat -> Z -> V -> Prop) : Prop := {
  ru_link : forall a b i x, L a b -> R b i x -> R a i x;
  ru_stream : forall n nd i, w_nodes w !! n = Some nd -> n_op nd = IN -> n_vk nd = VStream -> (forall b, ~ L n b) -> (0 <= i)%Z -> R n i (i_stream I (n_name nd) i);
  ru_scalar : forall n nd i, w_nodes w !! n = Some nd -> n_op nd = IN -> n_vk nd <> VStream -> (forall b, ~ L n b) -> R n i (i_scalar I (n_name nd));
  ru_const : forall n nd t c i, w_nodes w !! n = Some nd -> n_op nd = CONST c -> type_of w n = Some t -> R n i (i_const I t c);
  ru_offset : forall n nd k a i x, w_nodes w !! n = Some nd -> n_op nd = OFFSET k -> operands w n = [a] -> R a (i + k)%Z x -> R n i x;
  ru_out : forall n nd a i x, w_nodes w !! n = Some nd -> n_op nd = OUT -> operands w n = [a] -> R a i x -> R n i x;
  ru_mux : forall n nd c arms a i xc x, w_nodes w !! n = Some nd -> n_op nd = MUX -> operands w n = c :: arms ->
    (0 <= i)%Z -> R c i xc -> arms !! i_idx I xc = Some a -> R a i x -> (forall b, b ∈ arms -> exists y, R b i y) -> R n i x;
  ru_op : forall n nd t i xs x, w_nodes w !! n = Some nd ->
    (match n_op nd with BIN _ | UN _ | CAST | SHL _ | SHR _ | BITS _ _ | CAT => True | _ => False end) ->
    type_of w n = Some t -> (0 <= i)%Z -> Forall2 (fun a y => R a i y) (operands w n) xs -> i_op I (n_op nd) t xs = Some x -> R n i x
}.
Definition lval {V} (I : interp V) (L : nat -> nat -> Prop) (w : world) (n : nat) (i : Z) (x : V) : Prop :=
  forall R, rules I L w R -> R n i x.

(** [I'] is [I] with the bound input names standing for the values of the bound variables *)
Definition feeds {V} (w : world) (k : nat) (bs : list (nat * string)) (I I' : interp V) : Prop :=
  i_op I' = i_op I /\ i_idx I' = i_idx I /\ i_const I' = i_const I /\
  forall v s n nd, (v, s) ∈ bs -> port w k s n -> w_nodes w !! n = Some nd -> n_op nd = IN ->
    (n_vk nd = VStream -> forall j, (0 <= j)%Z -> kval I w v j (i_stream I' s j)) /\
    (n_vk nd <> VStream -> forall j, kval I w v j (i_scalar I' s)).

(** ** Kernel objects *)
(** the kernel destroyed is the one constructed last, and nothing outside it (a constant of
    the top kernel in particular) feeds it or is fed by it *)
Record drop_ok (w : world) (k : nat) : Prop := {
  dr_last : exists st, w_stack w = k :: st;
  dr_live : is_Some (w_kern w !! k);
  dr_top : w_top w = Some k <-> w_stack w = [k];
  dr_separate : forall m a, a ∈ operands w m -> (owner w a = k <-> owner w m = k)
}.

(** ** Histories with instances *)
Definition iok (w : world) (c : icmd) : Prop :=
  match c with
  | ICall c => ok_call w c
  | IInst p k bs => instance_ok w p k bs /\ feed_forward w k bs
  | IDrop k => drop_ok w k
  end.
(** every call is made in a state that suits it *)
Fixpoint idisciplined (F : fltops) (w : world) (h : list icmd) : Prop :=
  match h with
  | [] => True
  | c :: h' => iok w c /\ match istep F w c with Ok (w', _) => idisciplined F w' h' | _ => True end
  end.
(** every binding is between variables of the same type (raw bits counting as unsigned integers) *)
Fixpoint bindings_typed (F : fltops) (w : world) (h : list icmd) : Prop :=
  match h with
  | [] => True
  | c :: h' => match c with IInst _ k bs => types_match w k bs | _ => True end /\
      match istep F w c with Ok (w', _) => bindings_typed F w' h' | _ => True end
  end.
(** every sub-kernel is instantiated properly and every kernel destroyed properly; nothing is
    required of other calls *)
Fixpoint instances_ok (F : fltops) (w : world) (h : list icmd) : Prop :=
  match h with
  | [] => True
  | c :: h' => match c with IInst p k bs => instance_ok w p k bs | IDrop k => drop_ok w k | _ => True end /\
      match istep F w c with Ok (w', _) => instances_ok F w' h' | _ => True end
  end.
(** all calls of [h] return, [w] is the state afterwards, and sub-kernels are instantiated properly *)
Definition elaborates (F : fltops) (h : list icmd) (w : world) : Prop := irun F init_world h = Ok w /\ instances_ok F init_world h.

(** the kernel objects constructed and not yet destroyed (or given to [instance]), the youngest first *)
Fixpoint alive (F : fltops) (w : world) (l : list nat) (h : list icmd) : list nat :=
  match h with
  | [] => l
  | c :: h' =>
      match istep F w c with
      | Ok (w', rs) =>
          alive F w' (match c with
                      | ICall KNew => rs ++ l
                      | ICall _ => l
                      | IInst _ k _ | IDrop k => List.filter (fun j => negb (Nat.eqb j k)) l
                      end) h'
      | _ => l
      end
  end.
