(** Witnesses for Props_Rotate: a sorting function as assumed of np.argsort,
    and concrete spectra. *)
From Coq Require Import Reals List Bool String Arith Permutation Sorted Lia Lra ZArith Psatz.
From Coquelicot Require Import Complex.
From Verif Require Import M_Prelude M_ND Spec_Field Spec_Rotate M_Rotate P_ND P_Synth P_Rotate P_Rotate2 P_Rotate3 P_Response P_Rotate4.
Import ListNotations.
Open Scope R_scope.

Fixpoint insert_by (v : nat -> R) (i : nat) (l : list nat) : list nat :=
  match l with
  | [] => [i]
  | j :: k => if Rle_dec (v i) (v j) then i :: j :: k else j :: insert_by v i k
  end.
Definition isort (v : nat -> R) (l : list nat) : list nat := fold_right (insert_by v) [] l.
Definition argsort0 (l : list R) : list nat := isort (fun i => nth i l 0) (seq 0 (List.length l)).

Lemma insert_perm v i l : Permutation (insert_by v i l) (i :: l).
Proof.
  induction l as [|j k IH]; cbn; [reflexivity|]. destruct (Rle_dec _ _); [reflexivity|].
  rewrite IH. apply perm_swap.
Qed.

Lemma isort_perm v l : Permutation (isort v l) l.
Proof. induction l as [|i l IH]; cbn; [reflexivity|]. rewrite insert_perm. constructor. exact IH. Qed.

Lemma insert_sorted v i l : Sorted (fun a b => v a <= v b) l -> Sorted (fun a b => v a <= v b) (insert_by v i l).
Proof.
  induction l as [|j k IH]; intros S; cbn; [repeat constructor|].
  destruct (Rle_dec (v i) (v j)) as [H|H].
  - constructor; [exact S | constructor; exact H].
  - inversion S; subst. constructor; [auto|]. destruct k as [|m k]; cbn; [constructor; lra|].
    destruct (Rle_dec (v i) (v m)); constructor; [lra|]. inversion H3; assumption.
Qed.

Lemma argsort0_sorts : sorts_indices argsort0.
Proof.
  intros l. split; [apply isort_perm|]. unfold argsort0, isort.
  induction (seq 0 (List.length l)) as [|i k IH]; cbn; [constructor|]. apply insert_sorted. exact IH.
Qed.

(** Two layers *)
Lemma profile_ex : profile 6371.2 [(0, 1 / 100); (400, 1); (2900, 1000)].
Proof.
  split; [discriminate|]. split.
  - intros d s [E|[E|[E|[]]]]; injection E as <- <-; lra.
  - intros i j [H1 H2]. cbn in H2. destruct i as [|[|i]]; destruct j as [|[|[|j]]]; cbn; try lia; lra.
Qed.

(** Even N: a constant element stays, an alternating one is doubled *)
Lemma alternating_ex : alternating_mean 2 (fun n => if (n =? 0)%nat then 1 else 0) = 1 / 2.
Proof. unfold alternating_mean. cbn. lra. Qed.

Definition scalar_time (t : R) : nd R := mknd [] (fun _ => t).
Definition unit_matrix_signal (f : nat -> R) : nat -> nat -> nat -> R := fun j _ _ => f j.

Lemma spectra_ok argsort N step sc rows cols x q :
  exists F S FI SI, spectra argsort N step None sc rows cols x q = Ok (F, S, FI, SI).
Proof. unfold spectra. rewrite Nat.leb_refl. repeat eexists. Qed.

Lemma spectra_some_ok argsort N step f sc rows cols x q : (f <= half N)%nat ->
  exists F S FI SI, spectra argsort N step (Some f) sc rows cols x q = Ok (F, S, FI, SI).
Proof. intros H. unfold spectra. destruct (Nat.leb_spec f (half N)); [repeat eexists | lia]. Qed.

(** Even N is not reproduced *)
Lemma even_refuted : exists x F S FI SI,
  spectra argsort0 2 1 None (FlagBool true) 1 1 x (fun _ _ => RtoC 0) = Ok (F, S, FI, SI) /\
  exists M, synth_rotate_gauss (scalar_time (sample_time 1 0 0)) F S (FlagBool true) = Ok M /\ at_ M [0; 0]%nat <> x 0%nat 0%nat 0%nat.
Proof.
  set (x := unit_matrix_signal (fun n => if (n =? 0)%nat then 1 else 0)).
  destruct (spectra_ok argsort0 2 1 (FlagBool true) 1 1 x (fun _ _ => RtoC 0)) as (F & S & FI & SI & E).
  exists x, F, S, FI, SI. split; [exact E|].
  destruct (spectra_at_samples argsort0 2 1 (FlagBool true) 1 1 x _ F S FI SI (scalar_time (sample_time 1 0 0)) 0 (fun _ => 0%nat)
    argsort0_sorts ltac:(lia) ltac:(lra) (or_intror (ex_intro _ true eq_refl)) E) as (M & E1 & _ & E2).
  - intros i _. split; [lia|]. cbn. lra.
  - exists M. split; [exact E1|]. pose proof (E2 [] 0%nat 0%nat (Forall2_nil _) ltac:(lia) ltac:(lia)) as V. cbn [app] in V.
    rewrite V. change (Nat.even 2) with true. cbn iota. change (fun n => x n 0%nat 0%nat) with (fun n => if (n =? 0)%nat then 1 else 0).
    rewrite alternating_ex. cbn. lra.
Qed.

(** A start date other than 0 is lost *)
Lemma start_refuted : exists x F S FI SI,
  spectra argsort0 3 1 None (FlagBool true) 1 1 x (fun _ _ => RtoC 0) = Ok (F, S, FI, SI) /\
  exists M, synth_rotate_gauss (scalar_time (sample_time 1 (1 / 24) 0)) F S (FlagBool true) = Ok M /\ at_ M [0; 0]%nat <> x 0%nat 0%nat 0%nat.
Proof.
  set (x := unit_matrix_signal INR).
  destruct (spectra_ok argsort0 3 1 (FlagBool true) 1 1 x (fun _ _ => RtoC 0)) as (F & S & FI & SI & E).
  exists x, F, S, FI, SI. split; [exact E|].
  destruct (spectra_at_samples argsort0 3 1 (FlagBool true) 1 1 x _ F S FI SI (scalar_time (sample_time 1 (1 / 24) 0)) 0 (fun _ => 1%nat)
    argsort0_sorts ltac:(lia) ltac:(lra) (or_intror (ex_intro _ true eq_refl)) E) as (M & E1 & _ & E2).
  - intros i _. split; [lia|]. unfold sample_time. cbn. lra.
  - exists M. split; [exact E1|]. pose proof (E2 [] 0%nat 0%nat (Forall2_nil _) ltac:(lia) ltac:(lia)) as V. cbn [app] in V.
    rewrite V. change (Nat.even 3) with false. cbn iota. unfold x, unit_matrix_signal. cbn. lra.
Qed.

(** The flag read back from a saved file as a zero-dimensional array *)
Lemma saved_flag_refuted : exists F (S : nd C) time M M',
  sh F = [1; 1; 1]%nat /\ sh S = [1; 1; 1]%nat /\
  synth_rotate_gauss time F S (FlagBool false) = Ok M /\
  synth_rotate_gauss time F S (FlagArray false) = Ok M' /\ at_ M [0; 0]%nat <> at_ M' [0; 0]%nat.
Proof.
  set (F := mknd [1; 1; 1]%nat (fun _ => 1) : nd R). set (S := mknd [1; 1; 1]%nat (fun _ => RtoC 1) : nd C).
  set (time := scalar_time 0).
  destruct (synth_rotate_value time F S (FlagBool false) 1 1 1 eq_refl eq_refl) as (M & E1 & _ & V1).
  destruct (synth_rotate_value time F S (FlagArray false) 1 1 1 eq_refl eq_refl) as (M' & E2 & _ & V2).
  exists F, S, time, M, M'. repeat (split; [auto; fail|]).
  pose proof (V1 [] 0%nat 0%nat (Forall2_nil _) ltac:(lia) ltac:(lia)) as W1. cbn [app] in W1. rewrite W1.
  pose proof (V2 [] 0%nat 0%nat (Forall2_nil _) ltac:(lia) ltac:(lia)) as W2. cbn [app] in W2. rewrite W2.
  cbn [seq map Rsum fold_right F S time scalar_time at_]. unfold weight, oscillation, is_False, RtoC. cbn [negb fst snd].
  destruct (Rlt_dec 0 1); [|lra]. replace (2 * PI * 1 * 0) with 0 by ring. rewrite cos_0, sin_0. lra.
Qed.
