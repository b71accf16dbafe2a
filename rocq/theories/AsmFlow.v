(** * Which programs of the compiler can be written and read back: proofs. *)
From Coq Require Import ZArith Bool String Lia.
From stdpp Require Import gmap list.
From Verif Require Import TypingSpec Instance InstanceSpec InstanceFlow Types Word Value OpSpec Graph GraphSpec GraphFacts KernelSort TopSort Dfcir DfcirBuild DfcirProofs StreamSpec Sched SchedSpec SchedFacts KernelSpec KernelFlow
     Linear Pipeline TypesProofs SchedProofs SchedFinal ProgTyping RtlFlow RtlFacts Verify VerifySpec VerifyProofs VerifyFlow Asm AsmSpec AsmProofs AsmBuild.
Local Open Scope Z_scope.

Lemma no_offs_typed Q : no_offs Q -> offsets_typed Q.
Proof. intros N r d k t l a H. destruct (N _ _ _ _ _ _ H). Qed.
Section Kernel.
Variables (F : fltops) (h : list icmd) (w : world) (order : list nat).
Hypothesis R : irun F init_world h = Ok w.
Hypothesis D : idisciplined F init_world h.
Context {kern : nat}.
Hypothesis K1 : only_kernel w kern.
Hypothesis C : complete w kern.
Hypothesis S : sorts w kern order.
Variable P : program.
Hypothesis EP : build w order = Ok P.
Hypothesis GT : good_types F h.

Lemma kernel_offs_typed Q : Q = P \/ scheduled P Q -> offsets_plain w \/ (exists cfg perm L, asap_pass cfg perm P = Some (Q, L)) \/ (exists solve cfg perm L, linear_pass solve cfg perm P = Some (Q, L)) -> offsets_typed Q.
Proof.
  pose proof (kernel_ptyped F h w order R D K1 C S P EP GT) as PT.
  assert (EO : forall Q, (exists cfg perm L, asap_pass cfg perm P = Some (Q, L)) \/ (exists solve cfg perm L, linear_pass solve cfg perm P = Some (Q, L)) -> offsets_typed Q).
  { intros Q' [(cfg & perm & L & E)|(solve & cfg & perm & L & E)]; apply no_offs_typed.
    - unfold asap_pass in E. destruct (sgraph _) as [[ns cs]|]; [|discriminate]. destruct (asap ns cs) as [[[mm bs] mx]|]; [|discriminate].
      destruct (insert_buffers _ _ _) as [P2|] eqn:E2; [|discriminate]. injection E as <- _. apply erases_no_offs. eapply inserts_ptyped; [apply cfg_ptyped; exact PT|apply fresh_lt|exact E2].
    - unfold linear_pass in E. destruct (sgraph _) as [[ns cs]|]; [|discriminate]. destruct (lp_schedule _ _ _) as [bs|]; [|discriminate].
      destruct (insert_buffers _ _ _) as [P2|] eqn:E2; [|discriminate]. injection E as <- _. apply erases_no_offs. eapply inserts_ptyped; [apply cfg_ptyped; exact PT|apply fresh_lt|exact E2]. }
  intros SC [OP|X]; [|exact (EO _ X)]. destruct (kernel_checks F h w order R D K1 C S P EP OP) as (_ & PL & _).
  destruct SC as [->|[X|[X|(rnd & eps & m & perm & E)]]]; [exact (plain_offsets P PL)|exact (EO _ (or_introl X))|exact (EO _ (or_intror X))|].
  exact (plain_offsets Q (proj2 (comb_same F h w order R D K1 C S P EP _ _ _ _ _ E) PL)).
Qed.
Lemma kernel_asm Q : Q = P \/ scheduled P Q -> verified Q -> offsets_typed Q -> exists D, to_asm Q = Some D /\ wellformed ∅ D.
Proof.
  intros SC V O. pose proof (kernel_ptyped F h w order R D K1 C S P EP GT) as PT. apply verified_wellformed; [exact V| |exact O].
  destruct SC as [->|SC]; [exact PT|exact (scheduled_ptyped P Q PT SC)].
Qed.
End Kernel.
