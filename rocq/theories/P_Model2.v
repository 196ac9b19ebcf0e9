(** synth_from_pp against BaseModel.synth_values. *)
From Coq Require Import Reals List Arith ZArith String Bool Lia Lra.
From Coquelicot Require Import Coquelicot.
From Verif Require Import M_Prelude M_ND Spec_Field Spec_Legendre Spec_PP M_Legendre M_Synth M_SynthArr M_Spectrum M_PP M_Model
  P_Spectrum P_Spline P_PP P_PP2 P_ND P_Synth P_SynthArr P_SynthClosed P_Layout P_Design P_SynthProps P_SynthProps2 P_SynthProps3 P_Model.
Import ListNotations.
Open Scope R_scope.

(** success does not depend on the values of the coefficients *)
Lemma sv_congr oob a c1 c2 radius theta phi nmin nmax mmax source grid F1 :
  synth_values oob a c1 radius theta phi nmin nmax mmax source grid = Ok F1 ->
  csh c2 = csh c1 -> cdim c2 = cdim c1 ->
  exists F2, synth_values oob a c2 radius theta phi nmin nmax mmax source grid = Ok F2 /\ f_sh F2 = f_sh F1 /\
    forall x, crow c1 x = crow c2 x -> f_r F2 x = f_r F1 x /\ f_t F2 x = f_t F1 x /\ f_p F2 x = f_p F1 x.
Proof.
  intros E1 Hs Hd. destruct (sv_at _ _ _ _ _ _ _ _ _ _ _ _ E1) as (d & D1 & S1 & P1).
  assert (X2 : decode c2 radius theta phi nmin nmax mmax source grid = decode c1 radius theta phi nmin nmax mmax source grid)
    by (unfold decode; rewrite Hs, Hd; reflexivity).
  pose proof (synth_values_decode oob a c2 radius theta phi nmin nmax mmax source grid) as H. rewrite X2, D1 in H.
  pose proof (decode_bounds _ _ _ _ _ _ _ _ _ _ D1) as Hb.
  assert (CC : (count (e_mmax d) (e_nmin d) (e_nmax d + 1) <= cdim c1)%nat).
  { specialize (P1 []). unfold run_point, synth_point in P1.
    destruct (legendre_poly oob (e_nmax d) (bread (e_theta d) [])); [|discriminate]. cbn [bind] in P1.
    match type of P1 with context [for_rangeM ?u ?v (synth_n ?s ?r ?P ?sn ?po ?ph ?c ?mm) ?y] =>
      destruct (synth_n_cases s r P sn po ph c mm (e_nmin d) (e_nmax d) y) as [X|(z & X & Y & Z)] end.
    - lia.
    - reflexivity.
    - rewrite X in P1. discriminate.
    - rewrite Y, crow_length in Z. exact Z. }
  destruct (synth_values oob a c2 radius theta phi nmin nmax mmax source grid) as [F2|e].
  - exists F2. destruct H as [H1 H2]. split; [reflexivity|]. split; [congruence|]. intros x Hx. specialize (H2 x). specialize (P1 x).
    unfold run_point in *. rewrite Hx in P1. rewrite P1 in H2. injection H2 as <- <- <-. auto.
  - exfalso. specialize (H []). unfold run_point in H.
    destruct (point_weights oob (e_s d) a (e_nmin d) (e_nmax d) (e_mmax d) (e_poles d)
       (bread radius []) (bread (e_theta d) []) (bread (e_phi d) []) Hb) as (w & W).
    rewrite W in H by (rewrite crow_length, Hd; exact CC). discriminate.
Qed.

Lemma broadcast_last_fits A B C t gs : broadcast [A; B; C; t] = Ok gs -> fits t gs.
Proof.
  intros H. apply broadcast_fits in H. inversion H as [|? ? _ H1]; subst. inversion H1 as [|? ? _ H2]; subst.
  inversion H2 as [|? ? _ H3]; subst. inversion H3; assumption.
Qed.
Lemma sv_coeff_fits oob a c radius theta phi nmin nmax mmax source grid F :
  synth_values oob a c radius theta phi nmin nmax mmax source grid = Ok F -> fits (csh c) (f_sh F).
Proof.
  intros E. destruct (sv_at _ _ _ _ _ _ _ _ _ _ _ _ E) as (d & D & S & _). rewrite S. clear S E.
  unfold decode in D. destruct (check_poles _); [|discriminate]. cbn [bind] in D. destruct (_ <=? 0)%Z; [discriminate|].
  destruct (infer_nmax _ _ _ _). destruct (_ <? _)%Z; [discriminate|]. destruct (gridded grid theta phi) as [[th ph]|]; [|discriminate]. cbn [bind fst snd] in D.
  destruct (broadcast _) as [gs|] eqn:EB; [|discriminate]. cbn [bind] in D. destruct (parse_source source); [|discriminate]. cbn [bind] in D. injection D as <-.
  cbn [e_sh]. exact (broadcast_last_fits _ _ _ _ _ EB).
Qed.

(** nan_synth depends on the coefficients at valid times only *)
Lemma nan_synth_congr oob a r1 r2 radius theta phi N source grid F1 :
  s_sh r2 = s_sh r1 -> s_dim r2 = s_dim r1 -> (0 < s_dim r1)%nat ->
  (forall i d, valid (s_sh r1) i -> (d < s_dim r1)%nat -> s_at r2 i d = s_at r1 i d) ->
  nan_synth oob a r1 radius theta phi N source grid = Ok F1 ->
  exists F2, nan_synth oob a r2 radius theta phi N source grid = Ok F2 /\ o_sh F2 = o_sh F1 /\
    forall x, valid (o_sh F1) x -> o_r F2 x = o_r F1 x /\ o_t F2 x = o_t F1 x /\ o_p F2 x = o_p F1 x.
Proof.
  intros Hs Hd D0 HV. unfold nan_synth. intros H.
  match type of H with bind ?u _ = _ => destruct u as [G1|] eqn:E1; [|discriminate] end. cbn [bind] in H. injection H as <-.
  pose proof (sv_coeff_fits _ _ _ _ _ _ _ _ _ _ _ _ E1) as FT. cbn [csh] in FT.
  edestruct (sv_congr oob a _ (mkcarr (s_sh r2) (s_dim r2) (fun x k => match s_at r2 x k with Some v => v | None => 0 end)) radius theta phi _ _ _ _ _ _ E1 Hs Hd)
    as (G2 & E2 & S2 & V2).
  rewrite E2. cbn [bind]. eexists. split; [reflexivity|]. cbn [o_sh o_r o_t o_p]. split; [exact S2|].
  intros x Vx. specialize (FT x Vx). rewrite Hs, (HV _ 0%nat FT D0).
  destruct (V2 x) as (A & B & C).
  { unfold crow. cbn [csh cdim cat]. rewrite Hd, Hs. apply map_ext_in. intros d Hd'. apply in_seq in Hd'. rewrite HV by (exact FT || lia). reflexivity. }
  rewrite A, B, C. auto.
Qed.

Section PP.
Variables (oob a : R) (source : option string) (x : list R) (K D : nat) (c : nat -> nat -> nat -> R).
Hypothesis G : good_breaks x.
Hypothesis HK : (1 <= K)%nat.
Local Notation M := (model_init (Some x) (Some (Z.of_nat K)) (Some (mkc3 K (List.length x - 1) D c)) source).

Lemma base_M2 : m_base M = P_PP.model x K D c.
Proof.
  destruct G as [L _]. unfold model_init, P_PP.model, base_init. cbn [m_base c_k]. rewrite Z.min_id. reflexivity.
Qed.

Lemma pp_off_value nu t d : (d < D)%nat -> 
  pp_eval (pp_deriv (mkpp x K c false) nu) 0 t d =
  match interval (mkpp x K c false) t with None => None | Some i => Some (poly_eval K (fun r => c r i d) nu (t - nth i x 0)) end.
Proof. intros _. rewrite pp_deriv_eval. unfold pp_eval. cbn [p_k p_c p_x]. reflexivity. Qed.

Lemma interval_off t : (outside x t -> interval (mkpp x K c false) t = None).
Proof.
  intros O. unfold interval. cbn [p_x p_ext]. fold (first_break x). fold (last_break x).
  destruct (Rlt_dec t (first_break x)) as [|n1]; [reflexivity|]. destruct (Rlt_dec (last_break x) t) as [|n2]; [reflexivity|]. destruct O; contradiction.
Qed.

Lemma off_same time dim deriv r i d : elems time <> [] -> (d < D)%nat -> valid (sh time) i ->
  synth_coeffs (P_PP.model x K D c) time dim deriv (XStr "off") = Ok r ->
  option_map (fun v => v * 365.25 ^ nu_of deriv) (pp_eval (pp_deriv (mkpp x K c false) (nu_of deriv)) 0 (at_ time i) d) = s_at r i d.
Proof.
  intros NE Hd V E. rewrite pp_off_value by exact Hd.
  destruct (Rle_lt_dec (first_break x) (at_ time i)) as [H1|H1].
  - destruct (Rle_lt_dec (at_ time i) (last_break x)) as [H2|H2].
    + destruct (in_interval_ex x (at_ time i) G (conj H1 H2)) as [j Hj]. rewrite (interval_inside x K c false j _ G Hj). cbn [option_map].
      destruct (synth_coeffs_spec x K D c time dim deriv (XStr "off") G HK ltac:(lia) NE) as (S1 & _ & S3 & _).
      destruct (some_outside_dec x time) as [SO|SO].
      * destruct (S3 SO (Z.min 0 (Z.of_nat K)) eq_refl ltac:(lia)) as (r' & E' & _ & _ & V' & _). rewrite E in E'. injection E' as <-. symmetry. exact (V' i d j Hd Hj).
      * destruct (S1 SO) as (r' & E' & _ & _ & V'). rewrite E in E'. injection E' as <-. symmetry. exact (V' i d j Hd Hj).
    + rewrite interval_off by (right; exact H2). cbn [option_map]. symmetry.
      apply (off_value x K D c time dim deriv (XStr "off") r i d G HK Hd V ltac:(left; reflexivity) E). right. exact H2.
  - rewrite interval_off by (left; exact H1). cbn [option_map]. symmetry.
    apply (off_value x K D c time dim deriv (XStr "off") r i d G HK Hd V ltac:(left; reflexivity) E). left. exact H1.
Qed.

Lemma pp_is_model time radius theta phi nmax deriv grid : elems time <> [] -> (3 <= D)%nat -> nmax <> Some 0%nat ->
  let A := synth_from_pp oob a x (Z.of_nat K) (mkc3 K (List.length x - 1) D c) time radius theta phi nmax source deriv grid in
  let B := model_values oob a M time radius theta phi nmax deriv grid (XStr "off") in
  (forall F, A = Ok F -> exists F', B = Ok F' /\ o_sh F' = o_sh F /\
     forall i, valid (o_sh F) i -> o_r F' i = o_r F i /\ o_t F' i = o_t F i /\ o_p F' i = o_p F i) /\
  (forall F', B = Ok F' -> exists F, A = Ok F).
Proof.
  intros NE HD Hn A B. unfold A, B, synth_from_pp, model_values. cbn [c_d c_k c_v].
  assert (ND : m_nmax M = Some (degree_of_size D)) by (destruct x as [|? [|? ?]]; reflexivity). rewrite ND.
  destruct (degree_of_size_spec D) as (N0 & D1 & D2 & D3). rewrite D3.
  set (N := match nmax with None => Z.to_nat (Z.of_nat N0) | Some n => if (Z.of_nat N0 <? Z.of_nat n)%Z then Z.to_nat (Z.of_nat N0) else n end).
  assert (NB : (1 <= N <= N0)%nat).
  { assert (1 <= N0)%nat by nia. unfold N. destruct nmax as [[|n]|]; [congruence| |lia]. destruct (Z.ltb_spec (Z.of_nat N0) (Z.of_nat (S n))); lia. }
  assert (LD : (N * (N + 2) <= D)%nat) by nia.
  unfold model_coeffs. rewrite base_M2. cbn [option_map].
  destruct (C39_ok x K D c time (Some (N * (N + 2))%nat) deriv (XStr "off") G HK ltac:(lia) NE) as (r & ER & S1 & S2).
  { intros st Es. injection Es as <-. cbn. tauto. }
  rewrite Nat.min_l in S2 by exact LD. rewrite ER. cbn [bind].
  change (m_source M) with (match source with None => "internal"%string | Some s => s end).
  fold (nu_of deriv). rewrite Nat.min_l by exact LD.
  set (r0 := mkcres (sh time) (N * (N + 2)) _).
  assert (SA : forall i d, valid (sh time) i -> (d < N * (N + 2))%nat -> s_at r i d = s_at r0 i d).
  { intros i d V Hd. symmetry. unfold r0. cbn [s_at]. apply (off_same time (Some (N * (N + 2))%nat) deriv r i d NE ltac:(lia) V ER). }
  split.
  - intros F EF. destruct (nan_synth_congr oob a r0 r radius theta phi N _ _ F S1 S2 ltac:(unfold r0; cbn [s_dim]; nia) SA EF) as (F' & E' & Sh & V).
    exists F'. auto.
  - intros F' EF. assert (SB : forall i d, valid (s_sh r) i -> (d < s_dim r)%nat -> s_at r0 i d = s_at r i d).
    { intros i d V Hd. rewrite S1 in V. rewrite S2 in Hd. symmetry. apply SA; assumption. }
    destruct (nan_synth_congr oob a r r0 radius theta phi N _ _ F' (eq_sym S1) (eq_sym S2) ltac:(rewrite S2; nia) SB EF) as (F & E' & _). exists F. exact E'.
Qed.
End PP.
