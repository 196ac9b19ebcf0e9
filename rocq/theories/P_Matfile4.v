(** MAT-files: external part, Euler angles, names of satellites, success. *)
From Coq Require Import Reals List Arith ZArith String Bool Lia Lra.
From Verif Require Import M_Prelude M_ND Spec_Field Spec_PP M_PP M_Spectrum M_Model M_Chaos M_Matfile Spec_Matfile P_ND P_SHC2 P_SHCModel P_Chaos P_Chaos4 P_Matfile P_Matfile2 P_Matfile3.
Import ListNotations.
Open Scope R_scope.

(** ** External part *)
Definition pieces_of (d : delta) : nat := (List.length (d_breaks d) - 1)%nat.

Lemma delta_flat_length d : List.length (delta_flat d) = (d_order d * pieces_of d)%nat.
Proof. unfold delta_flat, pieces_of. rewrite map_length, seq_length. reflexivity. Qed.

Lemma delta_flat_nth d i : d_order d = 1%nat -> (i < pieces_of d)%nat -> nth i (delta_flat d) 0 = d_coeffs d 0%nat i.
Proof.
  intros H1 Hi. unfold delta_flat. fold (pieces_of d). rewrite H1, Nat.mul_1_l, nth_map_seq by exact Hi.
  rewrite Nat.div_small, Nat.mod_small by exact Hi. reflexivity.
Qed.

Lemma pairs_length (a b : list R) : List.length a = List.length b ->
  List.length (flat_map (fun p => [fst p; snd p]) (combine a b)) = (List.length a * 2)%nat.
Proof. revert b. induction a as [|x a IH]; intros [|y b] H; cbn in *; try lia. rewrite IH by lia. lia. Qed.

Lemma pairs_nth (a : list R) : forall b i j, List.length a = List.length b -> (i < List.length a)%nat -> (j < 2)%nat ->
  nth (i * 2 + j) (flat_map (fun p => [fst p; snd p]) (combine a b)) 0 = nth i (match j with 0%nat => a | _ => b end) 0.
Proof.
  induction a as [|x a IH]; intros [|y b] i j HL Hi Hj; cbn [List.length] in *; try lia.
  destruct i as [|i]; cbn [combine flat_map app fst snd].
  - destruct j as [|[|]]; [reflexivity|reflexivity|lia].
  - replace (S i * 2 + j)%nat with (S (S (i * 2 + j))) by lia. cbn [nth]. rewrite IH by lia. destruct j; reflexivity.
Qed.

Lemma map_nth_seq (l : list R) n : List.length l = n -> map (fun i => nth i l 0) (seq 0 n) = l.
Proof.
  intros <-. apply list_ext; [rewrite map_length, seq_length; reflexivity|]. intros p Hp. rewrite map_length, seq_length in Hp.
  rewrite nth_map_seq by exact Hp. reflexivity.
Qed.

Definition kept_gsm (gsm : list R) : list R := [nth 0 gsm 0; 0; 0; nth 3 gsm 0; 0; 0; 0; 0].

Lemma ext_round_trip sm gsm q10 q11 s11 :
  (3 <= List.length sm)%nat -> (4 <= List.length gsm)%nat -> d_order q10 = 1%nat -> d_order q11 = 1%nat -> d_order s11 = 1%nat ->
  pieces_of q11 = pieces_of s11 ->
  exists x, save_ext (Some sm) (Some gsm) (q10, q11, s11) = Ok x /\
    if (pieces_of q11 =? 1)%nat then load_ext x = Err IndexError
    else exists a b d, load_ext x = Ok (sm, kept_gsm gsm, (a, b, d)) /\ same_delta q10 a /\ same_delta q11 b /\
           d_breaks d = d_breaks q11 /\ d_order d = 1%nat /\ forall i, (i < pieces_of s11)%nat -> d_coeffs d 0%nat i = d_coeffs s11 0%nat i.
Proof.
  intros HS HG O1 O2 O3 HP. unfold save_ext, stack2.
  assert (EL : List.length (delta_flat q11) = List.length (delta_flat s11)) by (rewrite !delta_flat_length; congruence).
  rewrite EL, Nat.eqb_refl. cbn [bind]. destruct (Nat.ltb_spec (List.length sm) 3); [lia|].
  assert (EG : pick_gsm gsm = Ok [nth 0 gsm 0; nth 3 gsm 0]).
  { destruct gsm as [|g0 [|g1 [|g2 [|g3 gsm]]]]; cbn in HG; try lia. reflexivity. }
  rewrite EG. cbn [bind]. eexists. split; [reflexivity|].
  unfold load_ext. cbn [x_sm x_dst x_gsm x_qs11 x_tq10 x_q10 x_tqs11]. rewrite !squeeze_column.
  set (mm := [_; _; _] ++ skipn 3 sm).
  assert (ML : (3 <= List.length mm)%nat) by (unfold mm; rewrite app_length; cbn; lia).
  assert (FL : List.length (firstn 3 sm) = 3%nat) by (rewrite firstn_length; lia).
  rewrite FL, Nat.min_l by exact ML. rewrite Nat.eqb_refl. cbn [negb].
  unfold squeeze at 1. cbn [a_sh a_v filter Nat.eqb negb].
  rewrite <- EL, delta_flat_length, O2, Nat.mul_1_l.
  destruct (Nat.eqb_spec (pieces_of q11) 1) as [E1|E1]; cbn [negb]; [reflexivity|].
  set (n := pieces_of q11) in *.
  assert (LQ : List.length (delta_flat q11) = n) by (rewrite delta_flat_length, O2, Nat.mul_1_l; reflexivity).
  assert (LS : List.length (delta_flat s11) = n) by (rewrite <- EL; exact LQ).
  assert (C : forall j, (j < 2)%nat -> map (fun i => nth (i * 2 + j) (flat_map (fun p : R * R => [fst p; snd p]) (combine (delta_flat q11) (delta_flat s11))) 0) (seq 0 n)
    = match j with 0%nat => delta_flat q11 | _ => delta_flat s11 end).
  { intros j Hj. transitivity (map (fun i => nth i (match j with 0%nat => delta_flat q11 | _ => delta_flat s11 end) 0) (seq 0 n)).
    - apply map_ext_in. intros i Hi. apply in_seq in Hi. apply pairs_nth; [congruence|lia|exact Hj].
    - apply map_nth_seq. destruct j; assumption. }
  cbn [a_sh a_v squeeze filter Nat.eqb negb]. rewrite (proj2 (Nat.eqb_neq n 1) E1). cbn [negb]. rewrite (C 0%nat), (C 1%nat) by lia.
  assert (SM : firstn 3 sm ++ skipn 3 mm = sm) by (unfold mm; cbn [app skipn]; apply firstn_skipn). rewrite SM.
  eexists _, _, _. split; [reflexivity|]. cbn [d_breaks d_order d_coeffs]. split; [|split; [|split; [reflexivity|split; [reflexivity|]]]].
  - split; [reflexivity|]. split; [exact O1|]. cbn [d_coeffs]. rewrite O1. intros r i Hr Hi. replace r with 0%nat by lia. symmetry. apply delta_flat_nth; assumption.
  - split; [reflexivity|]. split; [exact O2|]. cbn [d_coeffs]. rewrite O2. intros r i Hr Hi. replace r with 0%nat by lia. symmetry. apply delta_flat_nth; assumption.
  - intros i Hi. apply delta_flat_nth; assumption.
Qed.

(** ** Names *)
Lemma names_spec n sats : let used := fst (name_satellites n sats) in
  List.length used = n /\
  (forall i, (i < n)%nat -> nth i used EmptyString = if (i <? List.length sats)%nat then nth i sats EmptyString else generic_name (i + 1)).
Proof.
  unfold name_satellites. destruct (Nat.ltb_spec n (List.length sats)) as [L|L]; cbn [fst].
  - split; [rewrite firstn_length; lia|]. intros i Hi. destruct (Nat.ltb_spec i (List.length sats)); [|lia].
    rewrite <- (firstn_skipn n sats) at 2. rewrite app_nth1 by (rewrite firstn_length; lia). reflexivity.
  - split; [rewrite app_length, map_length, seq_length; lia|]. intros i Hi. destruct (Nat.ltb_spec i (List.length sats)).
    + rewrite app_nth1 by assumption. reflexivity.
    + rewrite app_nth2 by lia. rewrite (nth_indep _ _ (generic_name 0)) by (rewrite map_length, seq_length; lia).
      rewrite map_nth, seq_nth by lia. f_equal. lia.
Qed.

Lemma names_caller n sats : snd (name_satellites n sats) = sats ++ map generic_name (seq (List.length sats + 1) (n - List.length sats)).
Proof.
  unfold name_satellites. destruct (Nat.ltb_spec n (List.length sats)) as [L|L]; cbn [snd]; [|reflexivity].
  replace (n - List.length sats)%nat with 0%nat by lia. cbn. rewrite app_nil_r. reflexivity.
Qed.
