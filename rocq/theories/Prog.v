(** * C++ code that constructs kernels, as programs over the construction API.

    A constructor of a kernel class is C++ code that calls the API of Graph.v / Instance.v
    and uses only the handles the calls return.  [prog A] is such code: a tree of API calls
    whose continuation depends on the returned handles. *)
From Coq Require Import ZArith Bool String.
From stdpp Require Import gmap list.
From Verif Require Import Types Word Value Graph Instance.

Inductive prog (A : Type) : Type :=
| Ret (a : A)
| Do (c : icmd) (f : list nat -> prog A)
| Abort.                                   (** a failed assert *)
Arguments Ret {A}. Arguments Do {A}. Arguments Abort {A}.

Fixpoint pbind {A B} (p : prog A) (f : A -> prog B) : prog B :=
  match p with
  | Ret a => f a
  | Do c g => Do c (fun rs => pbind (g rs) f)
  | Abort => Abort
  end.
Notation "'do' x <- p ; q" := (pbind p (fun x => q)) (at level 200, x pattern, p at level 100, q at level 200, right associativity).

(** one call returning one handle *)
Definition call (c : cmd) : prog nat := Do (ICall c) (fun rs => Ret (hd 0 rs)).
(** [instance<K>({...}, args)] (kernel.h:78-93): the constructor of [K] runs, then the
    ports are bound; the result is what the bound variables denote afterwards *)
Definition bind_ports (p k : kid) (bs : list (nid * string)) : prog (list nat) := Do (IInst p k bs) (fun rs => Ret rs).

Section Exec.
Variable F : fltops.
(** the state after the code has run, its result and the calls it made *)
Fixpoint exec {A} (w : world) (p : prog A) : res (world * A * list icmd) :=
  match p with
  | Ret a => Ok (w, a, [])
  | Do c f =>
      let! (w1, rs) := istep F w c in
      match exec w1 (f rs) with
      | Ok (w2, a, tr) => Ok (w2, a, c :: tr)
      | Throw => Throw | Assert => Assert | UB => UB
      end
  | Abort => Assert
  end.
End Exec.

(** loops *)
Fixpoint pfold {A B} (f : B -> A -> prog B) (b : B) (l : list A) : prog B :=
  match l with
  | [] => Ret b
  | a :: l' => do b' <- f b a; pfold f b' l'
  end.
Fixpoint pmap {A B} (f : A -> prog B) (l : list A) : prog (list B) :=
  match l with
  | [] => Ret []
  | a :: l' => do b <- f a; do bs <- pmap f l'; Ret (b :: bs)
  end.
