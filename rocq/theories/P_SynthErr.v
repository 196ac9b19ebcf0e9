(** The exceptions of synth_values and design_gauss *)
From Coq Require Import Reals List Arith ZArith String Lia Lra.
From Verif Require Import M_Prelude M_ND Spec_Field M_Legendre M_Synth M_SynthArr P_Synth P_SynthArr P_SynthProps P_SynthWit P_CoordArr.
Import ListNotations.
Open Scope R_scope.

Lemma source_value_error oob a c radius theta phi nmin nmax mmax str grid F :
  synth_values oob a c radius theta phi nmin nmax mmax (Some "internal"%string) grid = Ok F ->
  str <> "internal"%string -> str <> "external"%string ->
  synth_values oob a c radius theta phi nmin nmax mmax (Some str) grid = Err ValueError.
Proof.
  intros H H1 H2. unfold synth_values in *. cbv zeta in *.
  destruct (check_poles _) as [poles|]; [|discriminate]. cbn [bind] in *. destruct (_ <=? _)%Z; [discriminate|].
  destruct (infer_nmax _ _ _ _) as [nx mx]. destruct (_ <? _)%Z; [discriminate|].
  match goal with |- bind ?t _ = _ => destruct t as [[th ph]|]; [|discriminate] end. cbn [bind] in *.
  destruct (broadcast _) as [gsh|]; [|discriminate]. cbn [bind] in *. unfold parse_source.
  destruct (String.eqb_spec str "internal"); [contradiction|]. destruct (String.eqb_spec str "external"); [contradiction|]. reflexivity.
Qed.
Lemma source_value_error_design oob a radius theta phi nmin nmax mmax str G :
  design_gauss oob a radius theta phi nmax nmin mmax (Some "internal"%string) = Ok G ->
  str <> "internal"%string -> str <> "external"%string ->
  design_gauss oob a radius theta phi nmax nmin mmax (Some str) = Err ValueError.
Proof.
  intros H H1 H2. unfold design_gauss in *. cbv zeta in *.
  destruct (broadcast _) as [gsh|]; [|discriminate]. cbn [bind] in *.
  destruct (check_poles _) as [poles|]; [|discriminate]. cbn [bind] in *. do 5 (destruct (_ : bool); [discriminate|]).
  unfold parse_source.
  destruct (String.eqb_spec str "internal"); [contradiction|]. destruct (String.eqb_spec str "external"); [contradiction|]. reflexivity.
Qed.

Lemma range_errors oob a c radius theta phi nmin nmax mmax source grid :
  elems theta <> [] -> (forall t, In t (elems theta) -> 0 <= t <= 180) ->
  ((nmin < 1)%Z -> synth_values oob a c radius theta phi (Some nmin) (Some nmax) mmax source grid = Err AssertionError) /\
  ((1 <= nmin)%Z -> (nmax < nmin)%Z -> synth_values oob a c radius theta phi (Some nmin) (Some nmax) mmax source grid = Err ValueError).
Proof.
  intros Hne Ht. destruct (check_poles_ok _ Hne Ht) as (b & Eb & _). unfold synth_values. cbv zeta. rewrite Eb. cbn [bind orZ]. split.
  - intros H. destruct (Z.leb_spec nmin 0); [reflexivity|lia].
  - intros H1 H2. destruct (Z.leb_spec nmin 0); [lia|].
    destruct mmax as [m|]; cbn [infer_nmax]; (destruct (Z.ltb_spec nmax nmin); [reflexivity|lia]).
Qed.
Lemma shape_error oob a c radius theta phi nmin nmax mmax source e :
  elems theta <> [] -> (forall t, In t (elems theta) -> 0 <= t <= 180) -> (1 <= nmin <= nmax)%Z ->
  broadcast [sh radius; sh theta; sh phi; csh c] = Err e ->
  synth_values oob a c radius theta phi (Some nmin) (Some nmax) mmax source false = Err ValueError.
Proof.
  intros Hne Ht Hn E. destruct (check_poles_ok _ Hne Ht) as (b & Eb & _). unfold synth_values. cbv zeta. rewrite Eb. cbn [bind orZ sh].
  destruct (Z.leb_spec nmin 0); [lia|]. destruct mmax as [m|]; cbn [infer_nmax]; (destruct (Z.ltb_spec nmax nmin); [lia|]); cbn [bind];
    rewrite E, (broadcast_err _ _ E); reflexivity.
Qed.
