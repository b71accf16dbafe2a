From Coq Require Import ZArith Bool Lia.
From Verif Require Import Types.
Local Open Scope Z_scope.

Lemma ty_eqb_eq a b : ty_eqb a b = true <-> a = b.
Proof.
  destruct a, b; cbn; try (split; [discriminate|congruence]);
  rewrite ?andb_true_iff, ?Z.eqb_eq, ?Bool.eqb_true_iff; split.
  - intros [[-> ->] ->]; reflexivity.
  - intros E; injection E; auto.
  - intros [-> ->]; reflexivity.
  - intros E; injection E; auto.
  - intros ->; reflexivity.
  - intros E; injection E; auto.
Qed.

(** the ranges the stored fields can take *)
Definition wf_type (t : dftype) : Prop :=
  match t with
  | TFixed _ i f => 0 <= i < 65536 /\ 0 <= f < 65536
  | TFloat e f => 0 <= e < 256 /\ 0 <= f < 256
  | TRaw n => 0 <= n < 65536
  end.
Lemma mkFixed_wf s i f : wf_type (mkFixed s i f).
Proof. cbn. unfold u16. split; apply Z.mod_pos_bound; lia. Qed.
Lemma mkFloat_wf e f : wf_type (mkFloat e f).
Proof. cbn. unfold u8. split; apply Z.mod_pos_bound; lia. Qed.
Lemma mkRaw_wf n : wf_type (mkRaw n).
Proof. cbn. unfold u16. apply Z.mod_pos_bound; lia. Qed.
Lemma total_bits_range t : wf_type t -> 0 <= total_bits t < 65536.
Proof. destruct t; cbn; unfold u16; try (intros; apply Z.mod_pos_bound; lia). auto. Qed.
