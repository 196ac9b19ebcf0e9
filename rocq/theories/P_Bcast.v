(** The shape of a broadcast is the least shape that all operands fit; in
    particular it does not depend on the order of the operands. *)
From Coq Require Import List Arith Permutation Lia.
From Verif Require Import M_Prelude M_ND P_ND.
Import ListNotations.

Lemma bc_rev_lub a : forall b c, bc_rev a c = Some c -> bc_rev b c = Some c ->
  exists d, bc_rev a b = Some d /\ bc_rev d c = Some c.
Proof.
  induction a as [|x a IH]; intros [|y b] [|z c] A B; cbn in *;
    try (eexists; split; [reflexivity|]; assumption || reflexivity); try discriminate.
  destruct (bc_rev a c) as [ra|] eqn:Ea; [|discriminate]. destruct (bc_rev b c) as [rb|] eqn:Eb; [|discriminate].
  assert (Hra : ra = c /\ (x = z \/ x = 1)).
  { destruct (Nat.eqb_spec x z); [injection A as ? ?; subst; auto|].
    destruct (Nat.eqb_spec x 1); [injection A as ?; subst; auto|].
    destruct (Nat.eqb_spec z 1); [injection A as ? ?; subst; congruence|discriminate]. }
  assert (Hrb : rb = c /\ (y = z \/ y = 1)).
  { destruct (Nat.eqb_spec y z); [injection B as ? ?; subst; auto|].
    destruct (Nat.eqb_spec y 1); [injection B as ?; subst; auto|].
    destruct (Nat.eqb_spec z 1); [injection B as ? ?; subst; congruence|discriminate]. }
  destruct Hra as [-> Hx], Hrb as [-> Hy]. destruct (IH _ _ Ea Eb) as (d & E & D). rewrite E.
  destruct (Nat.eqb_spec x y) as [->|N].
  - eexists. split; [reflexivity|]. cbn. rewrite D. destruct (Nat.eqb_spec y z) as [->|]; [reflexivity|].
    destruct (Nat.eqb_spec y 1); [reflexivity|]. destruct Hy; congruence.
  - destruct (Nat.eqb_spec x 1) as [->|N1].
    + eexists. split; [reflexivity|]. cbn. rewrite D. destruct (Nat.eqb_spec y z) as [->|]; [reflexivity|].
      destruct (Nat.eqb_spec y 1); [reflexivity|]. destruct Hy; congruence.
    + destruct (Nat.eqb_spec y 1) as [->|N2].
      * eexists. split; [reflexivity|]. cbn. rewrite D. destruct (Nat.eqb_spec x z) as [->|]; [reflexivity|]. destruct Hx; congruence.
      * destruct Hx, Hy; subst; congruence.
Qed.

Lemma bshape_lub a b c : bfits a c -> bfits b c -> exists d, bshape a b = Some d /\ bfits d c.
Proof.
  unfold bfits, bshape. intros A B. destruct (bc_rev_lub _ _ _ A B) as (d & E & D).
  exists (rev d). rewrite E. cbn. split; [reflexivity|]. now rewrite rev_involutive.
Qed.

Lemma bfits_nil c : bfits [] c.
Proof. unfold bfits. reflexivity. Qed.

Lemma bc_rev_antisym a b : bc_rev a b = Some b -> bc_rev b a = Some a -> a = b.
Proof. intros A B. rewrite bc_rev_comm in B. congruence. Qed.

Lemma bfits_antisym a b : bfits a b -> bfits b a -> a = b.
Proof.
  unfold bfits. intros A B. rewrite <- (rev_involutive a), <- (rev_involutive b). f_equal. apply bc_rev_antisym; assumption.
Qed.

Lemma broadcast_lub_fold l : forall s0 c, bfits s0 c -> Forall (fun s => bfits s c) l ->
  exists d, fold_left (fun r s => bind r (fun t => match bshape t s with Some u => Ok u | None => Err ValueError end)) l (Ok s0) = Ok d
            /\ bfits d c.
Proof.
  induction l as [|s l IH]; intros s0 c H F; cbn.
  - eauto.
  - inversion F; subst. destruct (bshape_lub s0 s c) as (d & E & D); [assumption..|]. rewrite E. apply IH; assumption.
Qed.

Lemma broadcast_lub l c : Forall (fun s => bfits s c) l -> exists d, broadcast l = Ok d /\ bfits d c.
Proof. intros F. apply broadcast_lub_fold; [apply bfits_nil | exact F]. Qed.

Lemma broadcast_bfits l t : broadcast l = Ok t -> Forall (fun s => bfits s t) l.
Proof. intros E. apply broadcast_fold in E. apply E. Qed.

Lemma broadcast_least l t c : broadcast l = Ok t -> Forall (fun s => bfits s c) l -> bfits t c.
Proof. intros E F. destruct (broadcast_lub l c F) as (d & E' & D). congruence. Qed.

(** Operands with the same upper bounds have the same broadcast. *)
Lemma broadcast_same l l' t : (forall s, In s l <-> In s l') -> broadcast l = Ok t -> broadcast l' = Ok t.
Proof.
  intros H E. pose proof (broadcast_bfits _ _ E) as F.
  assert (F' : Forall (fun s => bfits s t) l').
  { apply Forall_forall. intros s Hs. rewrite Forall_forall in F. apply F, H, Hs. }
  destruct (broadcast_lub l' t F') as (d & E' & D). rewrite E'. f_equal. apply bfits_antisym; [exact D|].
  apply (broadcast_least _ _ _ E). apply Forall_forall. intros s Hs. pose proof (broadcast_bfits _ _ E') as G.
  rewrite Forall_forall in G. apply G, H, Hs.
Qed.

Lemma bshape_fit s t : bfits s t -> bshape t s = Some t.
Proof. unfold bfits, bshape. intros H. rewrite bc_rev_comm, H. cbn. now rewrite rev_involutive. Qed.

Lemma bfits_bshape s t : bshape t s = Some t -> bfits s t.
Proof. apply bfits_r. Qed.

Lemma broadcast_pair s : broadcast [s; s] = Ok s.
Proof.
  destruct (broadcast_lub [s; s] s) as (d & E & D); [apply Forall_cons; [apply bfits_refl|]; apply Forall_cons; [apply bfits_refl|apply Forall_nil]|].
  rewrite E. f_equal. apply bfits_antisym; [exact D|]. pose proof (broadcast_bfits _ _ E) as F. inversion F; assumption.
Qed.
Lemma broadcast_one_nil s : broadcast [s; []] = Ok s.
Proof.
  destruct (broadcast_lub [s; []] s) as (d & E & D); [apply Forall_cons; [apply bfits_refl|]; apply Forall_cons; [apply bfits_nil|apply Forall_nil]|].
  rewrite E. f_equal. apply bfits_antisym; [exact D|]. pose proof (broadcast_bfits _ _ E) as F. inversion F; assumption.
Qed.
