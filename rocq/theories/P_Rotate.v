(** Proofs about M_Rotate: evaluation of the spectra. *)
From Coq Require Import Reals List Bool String Arith Permutation Sorted Lia Lra.
From Coquelicot Require Import Complex.
From Verif Require Import M_Prelude M_ND Spec_Field Spec_Rotate M_Rotate P_ND.
Import ListNotations.
Open Scope R_scope.

Lemma Csum_fst l : fst (Csum l) = Rsum (map fst l).
Proof. induction l; [reflexivity|]. cbn [Csum fold_right map Rsum]. cbn. f_equal. exact IHl. Qed.

Definition weight (sc : flag) (f : R) : R :=
  if is_False sc then if Rlt_dec 0 f then 2 else 1 else 1.

Lemma bc_three ts a b c : broadcast [[a; b; c]; ts ++ [1; 1; 1]%nat] = Ok (ts ++ [a; b; c]).
Proof.
  unfold broadcast. cbn [fold_left bind]. unfold bshape at 2. cbn [rev app].
  cbn [bc_rev option_map rev app bind]. unfold bshape. rewrite rev_app_distr. cbn [rev app option_map bind bc_rev].
  assert (E : forall d (r : list nat), (if (d =? 1)%nat then Some (d :: r) else if (d =? 1)%nat then Some (1%nat :: r)
            else Some (d :: r)) = Some (d :: r)) by (intros d r; destruct (d =? 1)%nat; reflexivity).
  change (1 =? 1)%nat with true. cbv iota. rewrite !E. cbn. rewrite rev_involutive, <- !app_assoc. reflexivity.
Qed.

Lemma bc_three' ts a b c : broadcast [[a; b; c]; ts ++ [a; b; c]] = Ok (ts ++ [a; b; c]).
Proof.
  unfold broadcast. cbn [fold_left bind]. unfold bshape at 2. cbn [rev app].
  cbn [bc_rev option_map rev app bind]. unfold bshape. rewrite rev_app_distr. cbn [rev app option_map bind bc_rev].
  rewrite !Nat.eqb_refl. cbn. rewrite rev_involutive, <- !app_assoc. reflexivity.
Qed.

Lemma bidx_three a b c i x y z : (x < a)%nat -> (y < b)%nat -> (z < c)%nat ->
  bidx [a; b; c] (i ++ [x; y; z]) = [x; y; z].
Proof.
  intros H1 H2 H3. unfold bidx. rewrite rev_app_distr. cbn.
  destruct (Nat.eqb_spec c 1); destruct (Nat.eqb_spec b 1); destruct (Nat.eqb_spec a 1); subst; cbn; repeat f_equal; lia.
Qed.

Lemma bidx_ones ts i x y z : valid ts i ->
  bidx (ts ++ [1; 1; 1]%nat) (i ++ [x; y; z]) = i ++ [0; 0; 0]%nat.
Proof.
  intros H. unfold bidx. rewrite !rev_app_distr. cbn.
  pose proof (bidx_same ts i H) as E. unfold bidx in E. rewrite E. rewrite <- !app_assoc. reflexivity.
Qed.

Lemma Forall2_len {A B} (P : A -> B -> Prop) l k : Forall2 P l k -> List.length l = List.length k.
Proof. induction 1; cbn; congruence. Qed.

Lemma valid_app3 ts i a b c x y z : valid ts i -> (x < a)%nat -> (y < b)%nat -> (z < c)%nat ->
  valid (ts ++ [a; b; c]) (i ++ [x; y; z]).
Proof. intros. apply Forall2_app; [assumption | repeat constructor; assumption]. Qed.

Lemma firstn_app_len {A} (l k : list A) n : n = List.length l -> firstn n (l ++ k) = l.
Proof. intros ->. rewrite firstn_app, Nat.sub_diag, firstn_all. cbn. apply app_nil_r. Qed.
Lemma skipn_app_len {A} (l k : list A) n : n = List.length l -> skipn n (l ++ k) = k.
Proof. intros ->. rewrite skipn_app, Nat.sub_diag, skipn_all. reflexivity. Qed.

Lemma two_pi_pos f : 0 < 2 * PI * f <-> 0 < f.
Proof. pose proof PI_RGT_0. split; intros; nra. Qed.

(** The value of the documented, three-dimensional use *)
Lemma synth_rotate_value : forall time frequency spectrum sc k m n,
  sh frequency = [k; m; n] -> sh spectrum = [k; m; n] ->
  exists M, synth_rotate_gauss time frequency spectrum sc = Ok M /\ sh M = sh time ++ [m; n] /\
  forall i r c, valid (sh time) i -> (r < m)%nat -> (c < n)%nat ->
    at_ M (i ++ [r; c]) =
    Rsum (map (fun j => weight sc (at_ frequency [j; r; c]) *
                        oscillation (at_ frequency [j; r; c]) (at_ spectrum [j; r; c]) (at_ time i)) (seq 0 k)).
Proof.
  intros time frequency spectrum sc k m n Ef Es. unfold synth_rotate_gauss. cbn [sh]. rewrite Ef, Es.
  rewrite bc_three. cbn [bind]. rewrite bc_three'. cbn [bind].
  eexists. split; [reflexivity|]. cbn [sh at_].
  assert (L : (List.length (sh time ++ [k; m; n]) - 3)%nat = List.length (sh time)) by (rewrite app_length; cbn; lia).
  rewrite L. split.
  { rewrite firstn_app_len by reflexivity. f_equal.
    replace (S (List.length (sh time))) with (List.length (sh time ++ [k])) by (rewrite app_length; cbn; lia).
    replace (sh time ++ [k; m; n]) with ((sh time ++ [k]) ++ [m; n]) by (rewrite <- app_assoc; reflexivity).
    apply skipn_app_len. reflexivity. }
  intros i r c Hi Hr Hc.
  assert (Li : List.length i = List.length (sh time)) by (symmetry; exact (Forall2_len _ _ _ Hi)).
  rewrite firstn_app_len by (symmetry; exact Li). rewrite skipn_app_len by (symmetry; exact Li).
  replace (nth (List.length (sh time)) (sh time ++ [k; m; n]) 0%nat) with k
    by (rewrite app_nth2, Nat.sub_diag by lia; reflexivity).
  rewrite Csum_fst, map_map. f_equal. apply map_ext_in. intros j Hj. apply in_seq in Hj.
  assert (V : valid (sh time ++ [k; m; n]) (i ++ [j; r; c])) by (apply valid_app3; auto; lia).
  rewrite (bidx_same _ _ V). unfold bread. cbn [sh at_]. rewrite ?Ef, ?Es.
  rewrite (bidx_three k m n i j r c) by lia. rewrite (bidx_ones (sh time) i j r c Hi).
  rewrite firstn_app_len by (symmetry; exact Li).
  set (f := at_ frequency [j; r; c]). set (z := at_ spectrum [j; r; c]).
  unfold weight, oscillation. destruct (is_False sc).
  - destruct (Rlt_dec 0 (2 * PI * f)) as [H|H]; destruct (Rlt_dec 0 f) as [H'|H'];
      try (exfalso; rewrite two_pi_pos in H; contradiction);
      destruct z as [zr zi]; unfold Cmult, RtoC; cbn [fst snd]; ring.
  - destruct z as [zr zi]; unfold Cmult, RtoC; cbn [fst snd]; ring.
Qed.

Lemma vector_frequency_raises : forall time frequency spectrum sc k m n,
  sh frequency = [k] -> sh spectrum = [k; m; n] -> k <> n -> k <> 1%nat -> n <> 1%nat ->
  synth_rotate_gauss time frequency spectrum sc = Err ValueError.
Proof.
  intros time frequency spectrum sc k m n Ef Es H1 H2 H3. unfold synth_rotate_gauss. cbn [sh]. rewrite Ef, Es.
  assert (E : broadcast [[k]; sh time ++ [1; 1; 1]%nat] = Ok (sh time ++ [1; 1; k]%nat)).
  { unfold broadcast. cbn [fold_left bind]. unfold bshape at 2. cbn [rev app].
    cbn [bc_rev option_map rev app bind]. unfold bshape. rewrite rev_app_distr. cbn [rev app option_map bind bc_rev].
    destruct (Nat.eqb_spec k 1); [contradiction|]. cbn. rewrite rev_involutive, <- !app_assoc. reflexivity. }
  rewrite E. cbn [bind].
  assert (E2 : broadcast [[k; m; n]; sh time ++ [1; 1; k]%nat] = Err ValueError).
  { unfold broadcast. cbn [fold_left bind]. unfold bshape at 2. cbn [rev app].
    cbn [bc_rev option_map rev app bind]. unfold bshape. rewrite rev_app_distr. cbn [rev app option_map bind bc_rev].
    destruct (Nat.eqb_spec n k); [congruence|]. destruct (Nat.eqb_spec n 1); [contradiction|].
    destruct (Nat.eqb_spec k 1); [contradiction|]. 
    repeat (match goal with |- context[if ?b then _ else _] => destruct b end); reflexivity. }
  rewrite E2. reflexivity.
Qed.
