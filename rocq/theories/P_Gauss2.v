(** There is a function that gives a Gauss-Legendre rule for every order. *)
From Coq Require Import Reals List Arith Lia Lra.
From Coquelicot Require Import Coquelicot.
From Verif Require Import Spec_Legendre Spec_Field Spec_Analysis P_Legendre P_Legendre2 P_LegendreTab P_Ortho P_Synth P_Spline P_Quad P_Gauss.
Import ListNotations.
Open Scope R_scope.

Definition the_list (n : nat) (Q : list R -> Prop) : list R :=
  map (fun i => real (Lub_Rbar (fun x => exists l, Q l /\ x = nth i l 0))) (seq 0 n).

Lemma the_list_ok n (Q : list R -> Prop) l : List.length l = n -> Q l -> (forall l', Q l' -> l' = l) -> the_list n Q = l.
Proof.
  intros L HQ U. unfold the_list. subst n.
  rewrite (map_ext_in _ (fun i => nth i l 0)).
  - clear. induction l as [|a l IH]; [reflexivity|]. cbn [List.length seq map]. f_equal. rewrite <- IH at 2. rewrite <- seq_shift, map_map. reflexivity.
  - intros i _. rewrite (is_lub_Rbar_unique _ (Finite (nth i l 0))); [reflexivity|]. split.
    + intros x (l' & H' & ->). rewrite (U l' H'). apply Rle_refl.
    + intros b H. apply H. exists l. split; [exact HQ|reflexivity].
Qed.

Definition is_nodes (n : nat) (l : list R) : Prop := List.length l = n /\ inc (-1) l 1 /\ forall x, In x l -> Qf n 0 x = 0.

Lemma inc_unique : forall l l' a b, inc a l b -> inc a l' b -> (forall x, In x l <-> In x l') -> l = l'.
Proof.
  induction l as [|x l IH]; intros [|y l'] a b H H' E.
  - reflexivity.
  - exfalso. apply (E y). left. reflexivity.
  - exfalso. apply (E x). left. reflexivity.
  - cbn in H, H'. destruct H as [H1 H2], H' as [H1' H2'].
    assert (x = y) as <-.
    { destruct (proj1 (E x) (or_introl eq_refl)) as [Hx|Hx]; [symmetry; exact Hx|].
      destruct (proj2 (E y) (or_introl eq_refl)) as [Hy|Hy]; [exact Hy|].
      pose proof (inc_In _ _ _ _ H2' Hx). pose proof (inc_In _ _ _ _ H2 Hy). lra. }
    f_equal. apply (IH l' x b); [exact H2|exact H2'|]. intros z. split; intros Hz.
    + destruct (proj1 (E z) (or_intror Hz)) as [<-|]; [|assumption]. pose proof (inc_In _ _ _ _ H2 Hz). lra.
    + destruct (proj2 (E z) (or_intror Hz)) as [<-|]; [|assumption]. pose proof (inc_In _ _ _ _ H2' Hz). lra.
Qed.

Lemma node_poly_zero l x : node_poly l x = 0 -> In x l.
Proof.
  induction l as [|a l IH]; cbn; [lra|]. fold (node_poly l x). intros H. apply Rmult_integral in H. destruct H as [H|H]; [left; lra|right; apply IH, H].
Qed.

Lemma nodes_unique n l l' : is_nodes n l -> is_nodes n l' -> l = l'.
Proof.
  assert (S : forall l l', is_nodes n l -> is_nodes n l' -> forall x, In x l -> In x l').
  { intros l1 l2 (L1 & I1 & Z1) (L2 & I2 & Z2) x Hx.
    destruct (roots_factor l2 (inc_NoDup _ _ _ I2) (Qf n 0)) as [c Ec]; [rewrite L2; apply is_poly_leg|exact Z2|].
    apply node_poly_zero. pose proof (Ec x) as E. rewrite (Z1 x Hx) in E.
    symmetry in E. apply Rmult_integral in E. destruct E as [->|E]; [|exact E].
    specialize (Ec 1). rewrite legendre_one in Ec. lra. }
  intros H H'. apply (inc_unique l l' (-1) 1); [apply H|apply H'|]. intros x. split; apply S; assumption.
Qed.

Definition is_weights (l w : list R) : Prop :=
  List.length w = List.length l /\ forall d p, (S d <= List.length l)%nat -> is_poly d p ->
    int p = Rsum (map (fun xw => p (fst xw) * snd xw) (combine l w)).

Lemma is_poly_node l : is_poly (List.length l) (node_poly l).
Proof.
  induction l as [|a l IH]; [apply is_poly_const|]. cbn [List.length node_poly fold_right]. fold (node_poly l).
  apply (is_poly_mul 1 (List.length l)); [apply is_poly_linear|exact IH].
Qed.

Lemma sum_vanishing l : forall (w : list R) (p : R -> R), (forall x, In x l -> p x = 0) -> Rsum (map (fun xw => p (fst xw) * snd xw) (combine l w)) = 0.
Proof.
  intros w p H. apply Rsum_map_0. intros [x y] Hi. apply in_combine_l in Hi. cbn. rewrite H by exact Hi. ring.
Qed.

Lemma combine_app {A B} (l1 : list A) : forall (v1 : list B) l2 v2, List.length l1 = List.length v1 ->
  combine (l1 ++ l2) (v1 ++ v2) = (combine l1 v1 ++ combine l2 v2)%list.
Proof.
  induction l1 as [|a l1 IH]; intros [|b v1] l2 v2 H; cbn in H; try lia; [reflexivity|]. cbn [app combine]. rewrite IH by lia. reflexivity.
Qed.

Lemma weights_unique l w w' : NoDup l -> is_weights l w -> is_weights l w' -> w = w'.
Proof.
  intros ND [L E] [L' E'].
  assert (G : forall i, (i < List.length l)%nat -> nth i w 0 = nth i w' 0).
  { intros i Hi. destruct (nth_split l 0 Hi) as (l1 & l2 & El & L1). set (a := nth i l 0) in *.
    set (p := node_poly (l1 ++ l2)). assert (Hp : is_poly (List.length (l1 ++ l2)) p) by apply is_poly_node.
    assert (LL : List.length l = S (List.length (l1 ++ l2))) by (rewrite El, !app_length; cbn [List.length]; lia).
    assert (Z : forall x, In x l1 \/ In x l2 -> p x = 0) by (intros x Hx; apply node_poly_root, in_or_app, Hx).
    assert (NZ : p a <> 0).
    { intros H. apply node_poly_zero in H. rewrite El in ND. apply NoDup_remove_2 in ND. contradiction. }
    assert (V : forall v, List.length v = List.length l -> Rsum (map (fun xw => p (fst xw) * snd xw) (combine l v)) = p a * nth i v 0).
    { intros v Lv. assert (Hv : (i < List.length v)%nat) by lia. destruct (nth_split v 0 Hv) as (v1 & v2 & Ev & M1).
      replace (combine l v) with (combine (l1 ++ a :: l2) (v1 ++ nth i v 0 :: v2)) by (rewrite <- El, <- Ev; reflexivity).
      rewrite combine_app by lia. cbn [combine]. rewrite map_app, P_Synth.Rsum_app. cbn [map]. rewrite Rsum_cons. cbn [fst snd].
      rewrite !sum_vanishing; [ring| |]; intros x Hx; apply Z; [right|left]; exact Hx. }
    pose proof (E _ p ltac:(rewrite LL; apply le_n) Hp) as A. pose proof (E' _ p ltac:(rewrite LL; apply le_n) Hp) as B.
    rewrite V in A, B by assumption. rewrite A in B. apply (Rmult_eq_reg_l (p a)); assumption. }
  apply (nth_ext w w' 0 0); [lia|]. intros i Hi. apply G. lia.
Qed.

Definition standard_leggauss (n : nat) : list R * list R :=
  let x := the_list n (is_nodes n) in
  (x, the_list n (is_weights x)).

Theorem standard_rules n : (1 <= n)%nat -> gauss_rule n (fst (standard_leggauss n)) (snd (standard_leggauss n)).
Proof.
  intros Hn. unfold standard_leggauss. cbn [fst snd]. destruct (roots_legendre n) as (l & L & I & Z).
  assert (HN : is_nodes n l) by (split; [exact L|split; assumption]).
  rewrite (the_list_ok n (is_nodes n) l L HN) by (intros l' H'; apply (nodes_unique n); assumption).
  pose proof (inc_NoDup _ _ _ I) as ND.
  assert (NE : l <> []) by (intros ->; cbn in L; lia).
  destruct (weights l ND NE 0%nat (fun _ => 1) (is_poly_const 1)) as (w & Lw & Hw).
  assert (HW : is_weights l w).
  { split; [exact Lw|]. intros d p Hd Hp. rewrite <- (Hw d p Hd Hp). apply int_ext. intros; ring. }
  rewrite (the_list_ok n (is_weights l) w); [|lia|exact HW|intros w' H'; apply (weights_unique l); assumption].
  apply nodes_rule; assumption.
Qed.
