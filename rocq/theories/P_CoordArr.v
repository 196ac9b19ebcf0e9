(** Broadcasting in the coordinate transformations *)
From Coq Require Import Reals List Bool String Arith Lia Lra.
From Verif Require Import M_Prelude M_ND Spec_Coord M_Coord M_CoordArr P_ND P_Bcast.
Import ListNotations.
Open Scope nat_scope.

(** ** Indices *)
Lemma bidx_rev_zero a : forall b, bidx_rev a (map (fun _ : nat => 0) b) = map (fun _ => 0) a.
Proof.
  induction a as [|d a IH]; intros [|e b]; try reflexivity. cbn. f_equal; [destruct (d =? 1); reflexivity | apply IH].
Qed.
Lemma bidx_rev_trans a : forall b i, bc_rev a b = Some b -> bidx_rev a (bidx_rev b i) = bidx_rev a i.
Proof.
  induction a as [|d a IH]; intros [|e b] i H; try reflexivity.
  - cbn in H. discriminate.
  - destruct i as [|j i].
    + cbn [bidx_rev map]. f_equal; [destruct (d =? 1); reflexivity | apply bidx_rev_zero].
    + cbn [bc_rev] in H. destruct (bc_rev a b) as [r|] eqn:E; [|discriminate]. cbn [bidx_rev].
      assert (X : (d = e \/ d = 1) /\ r = b).
      { destruct (Nat.eqb_spec d e) as [->|N]; [injection H as ->; auto|].
        destruct (Nat.eqb_spec d 1) as [->|N1]; [injection H as ->; auto|].
        destruct (e =? 1); [|discriminate]. injection H as -> ->. auto. }
      destruct X as [X ->]. rewrite IH by exact E. f_equal.
      destruct (Nat.eqb_spec d 1) as [->|N1]; [reflexivity|]. destruct X as [->|X]; [|contradiction].
      destruct (Nat.eqb_spec e 1); [contradiction | reflexivity].
Qed.
Lemma bidx_trans s t i : bfits s t -> bidx s (bidx t i) = bidx s i.
Proof. intros H. unfold bidx. rewrite rev_involutive. f_equal. apply bidx_rev_trans. exact H. Qed.
Lemma bread_trans {A} (a : nd A) t i : bfits (sh a) t -> bread a (bidx t i) = bread a i.
Proof. intros H. unfold bread. f_equal. apply bidx_trans. exact H. Qed.

(** ** Broadcasting of lists of shapes *)
Lemma broadcast_err l e : broadcast l = Err e -> e = ValueError.
Proof.
  unfold broadcast. assert (G : forall l r, (forall e, r = Err e -> e = ValueError) ->
    fold_left (fun r s => bind r (fun t => match bshape t s with Some u => Ok u | None => Err ValueError end)) l r = Err e -> e = ValueError).
  { clear. induction l as [|s l IH]; intros r Hr H; [exact (Hr e H)|]. cbn [fold_left] in H. apply IH in H; [exact H|].
    intros e' E'. destruct r as [t|e'']; cbn in E'; [destruct (bshape t s); congruence | apply Hr; congruence]. }
  apply G. discriminate.
Qed.
Lemma broadcast_app l l' :
  broadcast (l ++ l') = bind (broadcast l) (fun s => bind (broadcast l') (fun s' => match bshape s s' with Some u => Ok u | None => Err ValueError end)).
Proof.
  destruct (broadcast (l ++ l')) as [t|e] eqn:E.
  - pose proof (broadcast_bfits _ _ E) as F. apply Forall_app in F. destruct F as [F1 F2].
    destruct (broadcast_lub l t F1) as (s & Es & Hs). destruct (broadcast_lub l' t F2) as (s' & Es' & Hs').
    rewrite Es, Es'. cbn [bind]. destruct (bshape_lub s s' t Hs Hs') as (d & Ed & Hd). rewrite Ed. f_equal.
    apply bfits_antisym; [|exact Hd]. apply (broadcast_least _ _ _ E). apply Forall_app. split.
    + pose proof (broadcast_bfits _ _ Es) as G. revert G. apply Forall_impl. intros a Ha. apply (bfits_trans _ s); [exact Ha | apply (bfits_l _ _ _ Ed)].
    + pose proof (broadcast_bfits _ _ Es') as G. revert G. apply Forall_impl. intros a Ha. apply (bfits_trans _ s'); [exact Ha | apply (bfits_r _ _ _ Ed)].
  - assert (e = ValueError) as -> by (eapply broadcast_err; exact E).
    destruct (broadcast l) as [s|e1] eqn:E1; cbn [bind]; [|rewrite (broadcast_err _ _ E1); reflexivity].
    destruct (broadcast l') as [s'|e2] eqn:E2; cbn [bind]; [|rewrite (broadcast_err _ _ E2); reflexivity].
    destruct (bshape s s') as [u|] eqn:Eu; [exfalso|reflexivity].
    assert (F : Forall (fun x => bfits x u) (l ++ l')).
    { apply Forall_app. split.
      - generalize (broadcast_bfits _ _ E1). apply Forall_impl. intros a Ha. apply (bfits_trans _ s); [exact Ha | apply (bfits_l _ _ _ Eu)].
      - generalize (broadcast_bfits _ _ E2). apply Forall_impl. intros a Ha. apply (bfits_trans _ s'); [exact Ha | apply (bfits_r _ _ _ Eu)]. }
    destruct (broadcast_lub _ _ F) as (d & Ed & _). congruence.
Qed.
Lemma broadcast_sets l l' : (forall s, In s l <-> In s l') -> broadcast l = broadcast l'.
Proof.
  intros H. destruct (broadcast l) as [t|e] eqn:E.
  - symmetry. apply (broadcast_same l); assumption.
  - destruct (broadcast l') as [t|e'] eqn:E'.
    + rewrite (broadcast_same l' l t) in E; [discriminate | intros s; symmetry; apply H | exact E'].
    + rewrite (broadcast_err _ _ E), (broadcast_err _ _ E'). reflexivity.
Qed.
Lemma bshape_nil s : bshape [] s = Some s.
Proof. unfold bshape. cbn. rewrite rev_involutive. reflexivity. Qed.
Lemma broadcast_1 s : broadcast [s] = Ok s.
Proof. unfold broadcast. cbn [fold_left bind]. rewrite bshape_nil. reflexivity. Qed.
Lemma broadcast_2 s t : broadcast [s; t] = match bshape s t with Some u => Ok u | None => Err ValueError end.
Proof. change [s; t] with ([s] ++ [t]). rewrite broadcast_app, !broadcast_1. reflexivity. Qed.

(** ** Arrays computed from inputs of shapes [l] *)
Definition over {A} (l : list (list nat)) (f : list nat -> A) : Prop :=
  forall s i, broadcast l = Ok s -> f (bidx s i) = f i.
Definition spec {A} (l : list (list nat)) (f : list nat -> A) (r : result (nd A)) : Prop :=
  over l f /\
  match broadcast l with
  | Ok s => exists a, r = Ok a /\ sh a = s /\ forall i, valid s i -> at_ a i = f i
  | Err _ => r = Err ValueError
  end.

Lemma over_sub {A} l l' (f : list nat -> A) : (forall s, In s l -> In s l') -> over l f -> over l' f.
Proof.
  intros H O s i E. pose proof (broadcast_bfits _ _ E) as F.
  assert (F' : Forall (fun x => bfits x s) l) by (apply Forall_forall; intros x Hx; rewrite Forall_forall in F; apply F, H, Hx).
  destruct (broadcast_lub l s F') as (d & Ed & Hd). rewrite <- (O d (bidx s i) Ed). rewrite bidx_trans by exact Hd. apply O. exact Ed.
Qed.
Lemma bread_spec {A} (a : nd A) s (f : list nat -> A) l t i : broadcast l = Ok s -> sh a = s -> (forall i, valid s i -> at_ a i = f i) -> over l f ->
  bfits s t -> valid t i -> bread a i = f i.
Proof.
  intros El Es Ha O F V. unfold bread. rewrite Es. rewrite Ha by (apply (bfits_fits _ _ F); exact V). apply O. exact El.
Qed.
Lemma spec_in {A} (a : nd A) : spec [sh a] (bread a) (Ok a).
Proof.
  split.
  - intros s i E. rewrite broadcast_1 in E. injection E as <-. apply bread_trans, bfits_refl.
  - rewrite broadcast_1. exists a. split; [reflexivity|]. split; [reflexivity|]. intros i V. unfold bread. rewrite bidx_same by exact V. reflexivity.
Qed.
Lemma spec_map {A B} (h : A -> B) l f r : spec l f r -> spec l (fun i => h (f i)) (bind r (fun a => Ok (map1 h a))).
Proof.
  intros [O S]. split; [intros s i E; rewrite (O s i E); reflexivity|].
  destruct (broadcast l) as [s|e]; [|rewrite S; reflexivity]. destruct S as (a & -> & Es & Ha). cbn [bind].
  eexists. split; [reflexivity|]. split; [exact Es|]. intros i V. cbn [at_ map1]. rewrite Ha by exact V. reflexivity.
Qed.
Lemma spec_rop2 {A B C} (h : A -> B -> C) l f ra l' g rb : spec l f ra -> spec l' g rb -> spec (l ++ l') (fun i => h (f i) (g i)) (rop2 h ra rb).
Proof.
  intros [O S] [O' S']. split.
  - intros s i E. rewrite (over_sub l (l ++ l') f ltac:(intros; apply in_or_app; auto) O s i E).
    rewrite (over_sub l' (l ++ l') g ltac:(intros; apply in_or_app; auto) O' s i E). reflexivity.
  - rewrite broadcast_app. destruct (broadcast l) as [s|e] eqn:E; cbn [bind]; [|rewrite S; reflexivity].
    destruct S as (a & -> & Es & Ha). destruct (broadcast l') as [s'|e'] eqn:E'; cbn [bind]; [|rewrite S'; reflexivity].
    destruct S' as (b & -> & Es' & Hb). unfold rop2, op2. cbn [bind]. rewrite broadcast_2, Es, Es'.
    destruct (bshape s s') as [u|] eqn:Eu; [|reflexivity]. cbn [bind]. eexists. split; [reflexivity|]. split; [reflexivity|].
    intros i V. cbn [at_]. rewrite (bread_spec a s f l u i E Es Ha O (bfits_l _ _ _ Eu) V), (bread_spec b s' g l' u i E' Es' Hb O' (bfits_r _ _ _ Eu) V). reflexivity.
Qed.
Lemma spec_perm {A} l l' (f : list nat -> A) r : (forall s, In s l <-> In s l') -> spec l f r -> spec l' f r.
Proof.
  intros H [O S]. split; [apply (over_sub l); [intros; apply H; assumption | exact O]|]. rewrite <- (broadcast_sets l l' H). exact S.
Qed.
Lemma spec_ext {A} l (f g : list nat -> A) r : (forall i, f i = g i) -> spec l f r -> spec l g r.
Proof.
  intros H [O S]. split; [intros s i E; rewrite <- !H; apply O; exact E|]. destruct (broadcast l); [|exact S].
  destruct S as (x & -> & Es & Ha). exists x. split; [reflexivity|]. split; [exact Es|]. intros i V. rewrite Ha by exact V. apply H.
Qed.
Lemma op2_rop2 {A B C} (h : A -> B -> C) a b : op2 h a b = rop2 h (Ok a) (Ok b).
Proof. reflexivity. Qed.
(** a bound array *)
Lemma spec_of_ok {A} l f (a : nd A) : spec l f (Ok a) -> exists s, broadcast l = Ok s /\ sh a = s /\ (forall i, valid s i -> at_ a i = f i) /\ over l f.
Proof.
  intros [O S]. destruct (broadcast l) as [s|e] eqn:E; [|discriminate]. destruct S as (a' & Ea & Es & Ha). injection Ea as <-. exists s. auto.
Qed.
Lemma spec_nil_scalar {A} (x : A) : spec [] (fun _ => x) (Ok (scalar x)).
Proof. split; [intros s i _; reflexivity|]. cbn. eexists. split; [reflexivity|]. split; [reflexivity|]. reflexivity. Qed.
