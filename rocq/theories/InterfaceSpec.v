(** * The interface a program of API calls declares (specification). *)
From Coq Require Import ZArith Bool String.
From stdpp Require Import gmap list.
From Verif Require Import Types Value Graph Instance Stubs Interface.

(** one declared port: its name, the handle of its type, and whether it is an input *)
Definition decl : Type := (string * nat * bool)%type.
Definition d_name (d : decl) : string := d.1.1.
Definition d_type (d : decl) : nat := d.1.2.
Definition d_input (d : decl) : bool := d.2.

(** the ports each kernel has so far: [io.input] and [io.output] (and the scalar variants) add
    one to their kernel; [instance] hands the ports that it does not bind over to the
    instantiating kernel, and the sub-kernel is gone, as is a destroyed kernel *)
Definition on (k : nat) (l : list decl) (I : nat -> list decl) : nat -> list decl :=
  fun q => if Nat.eqb q k then l else I q.
Definition unbound (bs : list (nat * string)) (d : decl) : bool := negb (existsb (fun b => String.eqb (snd b) (d_name d)) bs).
Definition declare (I : nat -> list decl) (c : icmd) : nat -> list decl :=
  match c with
  | ICall (CInput k _ name ty) => on k (I k ++ [(name, ty, true)]) I
  | ICall (COutput k _ name ty) => on k (I k ++ [(name, ty, false)]) I
  | ICall _ => I
  | IInst p k bs => on k [] (on p (I p ++ List.filter (unbound bs) (I k)) I)
  | IDrop k => on k [] I
  end.
Definition declared (h : list icmd) : nat -> list decl := fold_left declare h (fun _ => []).

(** no kernel that is instantiated has two ports of the same name *)
Fixpoint sub_names_distinct (I : nat -> list decl) (h : list icmd) : Prop :=
  match h with
  | [] => True
  | c :: h' => match c with IInst _ k _ => NoDup (map d_name (I k)) | _ => True end /\ sub_names_distinct (declare I c) h'
  end.
(** every port of every instantiated kernel is bound *)
Fixpoint all_bound (I : nat -> list decl) (h : list icmd) : Prop :=
  match h with
  | [] => True
  | c :: h' => match c with IInst _ k bs => forall d, d ∈ I k -> exists v, (v, d_name d) ∈ bs | _ => True end /\ all_bound (declare I c) h'
  end.
(** the ports the calls of [h] on kernel [k] itself declare, in the order of the calls *)
Definition own_ports (h : list icmd) (k : nat) : list decl :=
  omap (fun c => match c with
                 | ICall (CInput q _ name ty) => if Nat.eqb q k then Some (name, ty, true) else None
                 | ICall (COutput q _ name ty) => if Nat.eqb q k then Some (name, ty, false) else None
                 | _ => None
                 end) h.

(** the hardware port of a declared port: as wide as its type, signed iff its type is *)
Definition port_of (types : list dftype) (d : decl) : option hwport :=
  match types !! d_type d with
  | Some t => Some (mkPort (d_name d) (HBits (mkP (is_signed t) (total_bits t))) (d_input d))
  | None => None
  end.
