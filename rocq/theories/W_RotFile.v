(** C148: the calls of the theorems succeed. *)
From Coq Require Import Reals List Arith ZArith String Ascii Bool Lia Lra Permutation.
From Coquelicot Require Import Coquelicot.
From Verif Require Import M_Prelude M_ND Spec_Legendre Spec_Field Spec_Analysis Spec_Coord Spec_RotField Spec_Rotate Spec_PP Spec_Chaos M_Coord
  M_Synth M_SynthArr M_PP M_Spectrum M_Model M_Rotate M_Analysis M_Chaos M_RotFile P_Synth P_Spline P_SynthArr P_ND P_Bcast P_SHC2 P_RotSH P_RotGauss P_RotOrtho P_RotProps W_Analysis
  P_Rotate P_Rotate2 P_Chaos P_ChaosErr P_Chaos4 P_Chaos5 P_Chaos6 P_RotField P_RotField2 P_RotFile P_RotFile2 P_RotFile3 W_Rotate P_Gauss2.
Import ListNotations.
Open Scope R_scope.

Definition own_chaos : chaos := mkchaos None (Some (model_init (Some [0; 1]) (Some 1%Z) (Some (mkc3 1 1 3 (fun _ _ d => INR d))) None)) None (Some [3; 2; 1]) None None None.
Definition own_cfg : R * R * R := (-29442, -1501, 4797.1).
(** the file of 29 samples from the beginning of 2024, 3 hours apart, GSM *)
Definition own_file (sc : flag) (path : string) (D : disk) :=
  rotate_gauss_fft_to 0 standard_leggauss argsort0 own_cfg [] 1 1 (Some (fun _ _ => RtoC 1)) (Some 3) (Some 29%nat) None (Some path) (Some "GSM"%string) sc (Some 8766) D.

Lemma gsm_file_case : exists out D', own_file (FlagBool true) "my_gsm" (fun _ => None) = Ok (out, D') /\
  let E := env_of D' "my_gsm.npz" "none" None own_cfg 6371.2 0 in
  exists F, synth_values_gsm E own_chaos (scalar (sample_time 3 0 4)) (scalar 6800) (scalar 45) (scalar (-30)) None (Some "external"%string) None = Ok F /\ f_sh F = [] /\
  exists K, forall s, s = "external"%string -> synth_coeffs_gsm E own_chaos (mknd [29]%nat (fun i => sample_time 3 0 (hd 0%nat i))) None (Some s) = Ok K.
Proof.
  destruct spectrum_case as (axis & Hax & Hu & Hz & B1 & B2 & HO & Hr).
  destruct (file_rotates 0 standard_leggauss argsort0 own_cfg [] 1 (Some (fun _ _ => RtoC 1)) 3 29 false "GSM" "my_gsm" (fun _ => None) axis 8766
    standard_rules argsort0_sorts ltac:(lia) HO ltac:(lra) Hr B1 B2 Hax Hu Hz ltac:(discriminate)) as (out & w & Ew & Dw & Rw & _).
  exists out, (put (fun _ => None) (npz_name "my_gsm") w). split; [exact Ew|]. intros E.
  assert (EG : e_gsm E = Some (w_file w)) by reflexivity.
  destruct (gsm_value E own_chaos (w_file w) [3; 2; 1] 15 15 1 (scalar (sample_time 3 0 4)) None External eq_refl ltac:(discriminate) EG Dw ltac:(discriminate) eq_refl Rw) as (K & K1 & K2 & K3 & _).
  destruct (gsm_value E own_chaos (w_file w) [3; 2; 1] 15 15 1 (mknd [29]%nat (fun i => sample_time 3 0 (hd 0%nat i))) None External eq_refl ltac:(discriminate) EG Dw) as (KA & KA1 & _); [discriminate|reflexivity|exact Rw|].
  cbn [src_name] in K1, KA1.
  destruct (sv_default (e_oob E) (e_rsurf E) K (scalar 6800) (scalar 45) (scalar (-30)) External 1 []) as (F & EF & SF); [lia|exact K3|discriminate| |rewrite K2; reflexivity|].
  { intros t [H | []]. cbn in H. rewrite <- H. lra. }
  exists F. split; [|split; [exact SF|exists KA; intros s ->; exact KA1]].
  unfold synth_values_gsm. cbn. cbn in K1. rewrite K1. cbn [bind]. exact EF.
Qed.
Lemma unscaled_case : exists out D', own_file (FlagBool false) "my_gsm.npz" (fun _ => None) = Ok (out, D') /\
  exists K, synth_coeffs_gsm (env_of D' "my_gsm.npz" "none" None own_cfg 6371.2 0) own_chaos (scalar (sample_time 3 0 4)) None (Some "external"%string) = Ok K /\ cdim K = 3%nat.
Proof.
  destruct spectrum_case as (axis & Hax & Hu & Hz & B1 & B2 & HO & Hr).
  destruct (fft_frames 0 standard_leggauss argsort0 own_cfg [] 1 1 (Some (fun _ _ => RtoC 1)) 3 29 false "GSM" (FlagBool false) 8766 axis standard_rules argsort0_sorts ltac:(lia) ltac:(lia) HO ltac:(lra) (or_intror eq_refl) Hr B1 B2 Hax Hu Hz
    (mknd [0]%nat (fun _ => 0)) (fun _ => 0%nat)) as (F & S & FI & SI & _ & E & _).
  { intros i Hi. exfalso. cbn [sh] in Hi. inversion Hi as [|? ? ? ? X]. lia. }
  destruct (fft_to_writes _ _ _ _ _ _ _ _ _ _ _ _ _ _ (fun _ => None) _ _ _ _ "my_gsm.npz" E ltac:(discriminate)) as (w & Ew & Ww).
  exists (F, S, FI, SI), (put (fun _ => None) (npz_name "my_gsm.npz") w). split; [exact Ew|].
  destruct (fft_shapes _ _ _ _ _ _ _ _ _ _ _ _ _ _ _ _ _ _ E) as (S1 & S2 & S3 & S4).
  assert (Rw : rot_file (w_file w) 15 15 (1 * (1 + 2)) (1 * (1 + 2))) by (rewrite Ww; split; assumption || reflexivity).
  destruct (gsm_value (env_of (put (fun _ => None) (npz_name "my_gsm.npz") w) "my_gsm.npz" "none" None own_cfg 6371.2 0) own_chaos (w_file w) [3; 2; 1] 15 15 1 (scalar (sample_time 3 0 4)) None External
    eq_refl ltac:(discriminate) eq_refl ltac:(rewrite Ww; reflexivity) ltac:(discriminate) eq_refl Rw) as (K & K1 & K2 & K3 & _).
  exists K. split; [exact K1|exact K3].
Qed.
