(** Facts about broadcasting. *)
From Coq Require Import List Arith Lia.
From Verif Require Import M_Prelude M_ND.
Import ListNotations.

Lemma Forall2_rev {A B} (P : A -> B -> Prop) l k : Forall2 P l k -> Forall2 P (rev l) (rev k).
Proof.
  induction 1 as [|x y l k H _ IH]; [constructor|]. cbn [rev]. apply Forall2_app; [exact IH|]. constructor; [exact H|constructor].
Qed.

Lemma valid_rev s i : valid s i -> valid (rev s) (rev i).
Proof. apply Forall2_rev. Qed.

Lemma valid_zero_rev a : forall b c i, bc_rev a b = Some c -> valid c i -> valid a (bidx_rev a i).
Proof.
  induction a as [|x a IH]; intros b c i E V; cbn [bidx_rev]; [constructor|].
  destruct b as [|y b].
  - cbn in E. injection E as <-. clear IH.
    assert (G : forall s i, valid s i -> valid s (bidx_rev s i)); [|apply (G (x :: a)), V].
    clear. induction s as [|d s IH]; intros i V; inversion V; subst; [constructor|].
    cbn [bidx_rev]. constructor; [|apply IH; assumption].
    destruct (Nat.eqb_spec d 1); lia.
  - cbn in E. destruct (bc_rev a b) as [r|] eqn:F; [|discriminate].
    assert (X : exists d, c = d :: r /\ (x = d \/ x = 1)).
    { destruct (Nat.eqb_spec x y) as [->|]; [injection E as <-; eauto|].
      destruct (Nat.eqb_spec x 1) as [->|]; [injection E as <-; eauto|].
      destruct (Nat.eqb_spec y 1) as [->|]; [injection E as <-; eauto|]. discriminate. }
    destruct X as (d & -> & Hx). inversion V as [|d' j r' i' Hj Hi]; subst.
    constructor; [|apply (IH _ _ _ F Hi)].
    destruct (Nat.eqb_spec x 1); [lia|]. destruct Hx; lia.
Qed.

Lemma bc_rev_comm a : forall b, bc_rev a b = bc_rev b a.
Proof.
  induction a as [|x a IH]; intros [|y b]; try reflexivity. cbn. rewrite IH.
  destruct (bc_rev b a); [|reflexivity].
  destruct (Nat.eqb_spec x y) as [->|]; [rewrite Nat.eqb_refl; reflexivity|].
  destruct (Nat.eqb_spec y x) as [E|_]; [congruence|].
  destruct (Nat.eqb_spec x 1) as [E1|], (Nat.eqb_spec y 1) as [E2|]; try reflexivity. congruence.
Qed.

(** [s] can be stretched to [t]. *)
Definition fits (s t : list nat) : Prop := forall i, valid t i -> valid s (bidx s i).
(** stretching twice is stretching once *)
Definition bfits (s t : list nat) : Prop := bc_rev (rev s) (rev t) = Some (rev t).

Lemma fits_bshape_l a b c : bshape a b = Some c -> fits a c.
Proof.
  unfold bshape, fits, bidx. destruct (bc_rev (rev a) (rev b)) as [r|] eqn:E; [|discriminate].
  cbn. intros H i V. injection H as <-. apply valid_rev in V. rewrite rev_involutive in V.
  rewrite <- (rev_involutive a) at 1. apply valid_rev. apply (valid_zero_rev _ _ _ _ E V).
Qed.

Lemma fits_bshape_r a b c : bshape a b = Some c -> fits b c.
Proof. unfold bshape. rewrite bc_rev_comm. apply fits_bshape_l. Qed.

Lemma bc_rev_same a : bc_rev a a = Some a.
Proof. induction a as [|x a IH]; cbn; [reflexivity|]. rewrite IH, Nat.eqb_refl. reflexivity. Qed.

(** absorbing *)
Lemma bc_rev_absorb_l a : forall b c, bc_rev a b = Some c -> bc_rev a c = Some c.
Proof.
  induction a as [|x a IH]; intros [|y b] c E; cbn in E.
  - injection E as <-. reflexivity.
  - injection E as <-. reflexivity.
  - injection E as <-. apply bc_rev_same.
  - destruct (bc_rev a b) as [r|] eqn:F; [|discriminate]. apply IH in F.
    destruct (Nat.eqb_spec x y) as [->|N1]; [injection E as <-; cbn; rewrite F, Nat.eqb_refl; reflexivity|].
    destruct (Nat.eqb_spec x 1) as [->|N2].
    + injection E as <-. cbn [bc_rev]. rewrite F. destruct (Nat.eqb_spec 1 y); [congruence|]. reflexivity.
    + destruct (Nat.eqb_spec y 1) as [->|]; [|discriminate]. injection E as <-.
      cbn [bc_rev]. rewrite F, Nat.eqb_refl. reflexivity.
Qed.

Lemma bc_rev_trans a : forall b c, bc_rev a b = Some b -> bc_rev b c = Some c -> bc_rev a c = Some c.
Proof.
  induction a as [|x a IH]; intros [|y b] [|z c] E F; cbn in *; try congruence; try discriminate.
  destruct (bc_rev a b) as [r|] eqn:A; [|discriminate]. destruct (bc_rev b c) as [t|] eqn:B; [|discriminate].
  assert (Hr : r = b /\ (x = y \/ x = 1)).
  { destruct (Nat.eqb_spec x y); [injection E; auto|]. destruct (Nat.eqb_spec x 1); [injection E; auto|].
    destruct (Nat.eqb_spec y 1); [injection E as -> ->; congruence|discriminate]. }
  assert (Ht : t = c /\ (y = z \/ y = 1)).
  { destruct (Nat.eqb_spec y z); [injection F; auto|]. destruct (Nat.eqb_spec y 1); [injection F; auto|].
    destruct (Nat.eqb_spec z 1); [injection F as -> ->; congruence|discriminate]. }
  destruct Hr as [-> Hxy], Ht as [-> Hyz]. rewrite (IH _ _ A B).
  destruct (Nat.eqb_spec x z) as [->|N]; [reflexivity|].
  destruct (Nat.eqb_spec x 1) as [->|]; [reflexivity|]. exfalso. destruct Hxy, Hyz; subst; congruence.
Qed.

Lemma bfits_fits s t : bfits s t -> fits s t.
Proof. unfold bfits. intros H. apply (fits_bshape_l s t). unfold bshape. rewrite H. cbn. now rewrite rev_involutive. Qed.

Lemma bfits_refl s : bfits s s.
Proof. unfold bfits. apply (bc_rev_absorb_l _ []). destruct (rev s); reflexivity. Qed.
Lemma bfits_trans s t u : bfits s t -> bfits t u -> bfits s u.
Proof. apply bc_rev_trans. Qed.
Lemma bfits_l a b c : bshape a b = Some c -> bfits a c.
Proof.
  unfold bshape, bfits. destruct (bc_rev (rev a) (rev b)) as [r|] eqn:E; [|discriminate].
  cbn. intros H; injection H as <-. rewrite rev_involutive. apply (bc_rev_absorb_l _ _ _ E).
Qed.
Lemma bfits_r a b c : bshape a b = Some c -> bfits b c.
Proof. intros H. apply (bfits_l b a). unfold bshape in *. now rewrite bc_rev_comm. Qed.

Lemma broadcast_fold l : forall s0 t,
  fold_left (fun r s => bind r (fun t => match bshape t s with Some u => Ok u | None => Err ValueError end)) l (Ok s0) = Ok t ->
  bfits s0 t /\ Forall (fun s => bfits s t) l.
Proof.
  induction l as [|s l IH]; intros s0 t E; cbn in E.
  - injection E as ->. split; [apply bfits_refl|constructor].
  - destruct (bshape s0 s) as [u|] eqn:U.
    + apply IH in E. destruct E as [E1 E2]. split.
      * apply (bfits_trans _ u); [apply (bfits_l _ _ _ U)|exact E1].
      * constructor; [|exact E2]. apply (bfits_trans _ u); [apply (bfits_r _ _ _ U)|exact E1].
    + exfalso. clear -E. induction l as [|x l IH]; cbn in E; [discriminate|apply IH, E].
Qed.

(** Every operand of a successful broadcast can be read at every index of the result. *)
Lemma broadcast_fits l t : broadcast l = Ok t -> Forall (fun s => fits s t) l.
Proof.
  intros E. apply broadcast_fold in E. destruct E as [_ E].
  eapply Forall_impl; [|exact E]. intros s. apply bfits_fits.
Qed.

Lemma indices_valid s : forall i, In i (indices s) <-> valid s i.
Proof.
  induction s as [|d s IH]; intros i; cbn [indices].
  - split; [intros [<-|[]]; constructor|]. intros H; inversion H. left; reflexivity.
  - rewrite in_flat_map. split.
    + intros (j & Hj & H). apply in_seq in Hj. apply in_map_iff in H. destruct H as (k & <- & Hk).
      constructor; [lia|]. apply IH, Hk.
    + intros H. inversion H as [|d' j s' k Hj Hk]; subst. exists j. split; [apply in_seq; lia|].
      apply in_map, IH, Hk.
Qed.

Lemma bread_in {A} (a : nd A) t i : fits (sh a) t -> valid t i -> In (bread a i) (elems a).
Proof. intros F V. unfold bread, elems. apply in_map, indices_valid, F, V. Qed.

Lemma bidx_nil i : bidx [] i = [].
Proof. reflexivity. Qed.

Lemma bread_scalar {A} (x : A) i : bread (scalar x) i = x.
Proof. reflexivity. Qed.

(** np.broadcast of shapes is equal to the result if all operands have that shape or are scalars *)
Lemma bidx_same s i : valid s i -> bidx s i = i.
Proof.
  unfold bidx. intros V. apply valid_rev in V. rewrite <- (rev_involutive i) at 2. f_equal.
  revert V. generalize (rev i). generalize (rev s). induction l as [|d l IH]; intros k V; inversion V; subst; [reflexivity|].
  cbn [bidx_rev]. rewrite IH by assumption. destruct (Nat.eqb_spec d 1); [|reflexivity]. f_equal. lia.
Qed.
