(** C148: files written by rotate_gauss_fft and read by CHAOS. *)
From Coq Require Import Reals List Arith ZArith String Ascii Bool Lia Lra.
From Coquelicot Require Import Coquelicot.
From Verif Require Import M_Prelude M_ND Spec_Legendre Spec_Field Spec_Analysis Spec_Coord Spec_RotField Spec_Rotate Spec_PP Spec_Chaos M_Coord P_Coord P_Coord2 P_Coord3 M_Legendre P_Legendre P_Legendre2 P_LegendreTab
  M_Synth M_SynthArr M_PP M_Spectrum M_Model M_Rotate M_Analysis M_Chaos M_RotFile P_Synth P_Spline P_SynthArr P_ND P_Bcast P_SynthClosed P_SynthProps P_SynthProps2 P_SHC2 P_RotSH P_RotGauss P_RotOrtho P_RotProps W_Analysis
  P_Rotate P_Rotate2 P_Chaos P_ChaosErr P_Chaos4 P_Chaos5 P_Chaos6 P_RotField P_RotField2.
Import ListNotations.
Open Scope R_scope.

(** ** The field of an array of rotated coefficients, at one index *)
Lemma rotated_row oob a K v L N e1 e2 e3 Mx radius theta phi F x th ph s :
  right_handed_orthonormal e1 e2 e3 -> rot N N (e1, e2, e3) Mx -> List.length v = (N * (N + 2))%nat -> (1 <= L <= N)%nat -> (cdim K = L * (L + 2))%nat ->
  (forall r, (r < cdim K)%nat -> cat K (bidx (csh K) x) r = times Mx v r) ->
  synth_values oob a K radius theta phi None None None (Some (src_name s)) false = Ok F ->
  (forall t, In t (elems theta) -> 0 <= t <= 180) -> valid (f_sh F) x -> 0 <= th <= 180 ->
  direction th ph = resolve e1 e2 e3 (direction (bread theta x) (bread phi x)) ->
  exists F', synth_values oob a (cvec v) (scalar (bread radius x)) (scalar th) (scalar ph) (Some 1%Z) (Some (Z.of_nat L)) (Some (Z.of_nat L)) (Some (src_name s)) false = Ok F' /\
    field_vector th ph (f_r F' []) (f_t F' []) (f_p F' []) = resolve e1 e2 e3 (field_vector (bread theta x) (bread phi x) (f_r F x) (f_t F x) (f_p F x)).
Proof.
  intros Hb HR Lv HL HC HK E Ht V Hth D.
  destruct (one_point oob a v (bread radius x) th ph L s ltac:(lia) ltac:(rewrite Lv; nia) Hth) as (F' & E' & S'). exists F'. split; [exact E'|].
  assert (EQ : synth_values oob a K radius theta phi None None None (Some (src_name s)) false =
    synth_values oob a K radius theta phi (Some (Z.of_nat 1)) (Some (Z.of_nat L)) (Some (Z.of_nat L)) (Some (src_name s)) false).
  { unfold synth_values. cbn [orZ]. rewrite HC. change (Z.of_nat 1) with 1%Z. rewrite infer_square. reflexivity. }
  rewrite EQ in E. change 1%Z with (Z.of_nat 1) in E'.
  set (w := crow K x).
  assert (Lw : List.length w = (L * (L + 2))%nat) by (unfold w, crow; rewrite map_length, seq_length; exact HC).
  assert (W : forall i, (i < L * (L + 2))%nat -> nth i w 0 = times Mx v i).
  { intros i Hi. unfold w, crow. rewrite (nth_indep _ 0 (cat K (bidx (csh K) x) 0%nat)) by (rewrite map_length, seq_length; lia).
    rewrite map_nth, seq_nth by lia. cbn [Nat.add]. apply HK. lia. }
  destruct (gauss_positions L w) as (restw & Ew); [lia|]. destruct (gauss_positions L v) as (restv & Ev); [rewrite Lv; nia|].
  set (gw := fun n m => nth (gidx n m) w 0) in *. set (hw := fun n m => nth (hidx n m) w 0) in *.
  set (gv := fun n m => nth (gidx n m) v 0) in *. set (hv := fun n m => nth (hidx n m) v 0) in *.
  destruct (sv_closed _ _ _ _ _ _ _ _ _ _ _ x gw hw restw E Ht V) as (_ & _ & R1 & R2 & R3); [exact Ew|].
  destruct (sv_closed _ _ _ _ _ _ _ _ _ _ _ [] gv hv restv E') as (_ & _ & R1' & R2' & R3').
  { intros t [<- | []]. exact Hth. } { rewrite S'. constructor. } { rewrite crow_cvec; exact Ev. }
  change (bread (scalar (bread radius x)) []) with (bread radius x) in *. change (bread (scalar th) []) with th in *. change (bread (scalar ph) []) with ph in *.
  rewrite R1, R2, R3, R1', R2', R3'. rewrite !field_vector_frames.
  set (t := rad (bread theta x)) in *. set (p := rad (bread phi x)) in *. set (t' := rad th) in *. set (p' := rad ph) in *.
  assert (D' : du t' p' = resolve e1 e2 e3 (du t p)) by (unfold t, p, t', p'; rewrite !du_direction; exact D).
  assert (HH : forall n, (1 <= n <= L)%nat -> forall t p, harm n (gw n) (hw n) (du t p) = harm n (gv n) (hv n) (resolve e1 e2 e3 (du t p))).
  { intros n Hn0 t0 p0. transitivity (harm n (fun m => times Mx v (g_position n m)) (fun m => times Mx v (h_position n m)) (du t0 p0)).
    - apply Rsum_map_ext. intros m Hm. apply range_incl_spec in Hm.
      assert (GI : gidx n m = g_position n m) by reflexivity. assert (HI : hidx n m = h_position n m) by reflexivity.
      unfold gw, hw. rewrite GI, HI. clear GI HI.
      rewrite W by (pose proof (g_range n m ltac:(lia) ltac:(lia)); nia).
      rewrite W; [rring|]. unfold h_position. nia.
    - exact (rot_harm N N e1 e2 e3 Mx v n Hb HR Lv ltac:(lia) t0 p0). }
  destruct (field_rotates s a (bread radius x) L gv hv gw hw e1 e2 e3 Hb HH t p t' p' D') as (FR & FT).
  rewrite FR, FT, D', !resolve_add, !resolve_scale. reflexivity.
Qed.

(** ** The file *)
Lemma fft_shapes oob leggauss argsort cfg file nmax kmax qfunc step N filter reference sc start F S FI SI :
  rotate_gauss_fft oob leggauss argsort cfg file nmax kmax qfunc step N filter reference sc start = Ok (F, S, FI, SI) ->
  let n := match N with None => Z.to_nat 70128 | Some n => n end in
  let k := match filter with None => half n | Some f => f end in
  let shape := [k; nmax * (nmax + 2); kmax * (kmax + 2)]%nat in
  sh F = shape /\ sh S = shape /\ sh FI = shape /\ sh SI = shape.
Proof.
  unfold rotate_gauss_fft. cbv zeta. set (n0 := match N with None => Z.to_nat 70128 | Some n => n end). clearbody n0. intros H.
  destruct (if String.eqb _ _ then _ else _) as [bases|]; [|discriminate]. cbn [bind] in H.
  destruct (rotate_gauss _ _ _ _ bases) as [Ms|]; [|discriminate]. cbn [bind] in H. unfold spectra in H.
  destruct (_ <=? _)%nat; [|discriminate]. injection H as <- <- <- <-. repeat split; reflexivity.
Qed.

Lemma npz_name_nonempty s : npz_name s <> ""%string.
Proof.
  unfold npz_name. destruct (andb _ _) eqn:E.
  - apply andb_prop in E. destruct E as [E _]. intros ->. discriminate.
  - destruct s; discriminate.
Qed.

Lemma fft_to_writes oob leggauss argsort cfg file nmax kmax qfunc step N filter reference sc start D F S FI SI path :
  rotate_gauss_fft oob leggauss argsort cfg file nmax kmax qfunc step N filter reference sc start = Ok (F, S, FI, SI) -> path <> ""%string ->
  exists w, rotate_gauss_fft_to oob leggauss argsort cfg file nmax kmax qfunc step N filter (Some path) reference sc start D = Ok ((F, S, FI, SI), put D (npz_name path) w) /\
    w_file w = mkrot F S FI SI (FlagArray (truthy sc)) (dipole_list cfg).
Proof.
  intros E Hp. unfold rotate_gauss_fft_to. rewrite E. cbn [bind].
  rewrite (proj2 (String.eqb_neq path "") Hp). eexists. split; reflexivity.
Qed.

Lemma put_same D n w : put D n w n = Some w.
Proof. unfold put. rewrite String.eqb_refl. reflexivity. Qed.
Lemma put_other D n w p : p <> n -> put D n w p = D p.
Proof. intros H. unfold put. rewrite (proj2 (String.eqb_neq p n) H). reflexivity. Qed.

(** ** Rotation read from the file *)
Lemma file_rotates oob leggauss argsort cfg file deg qfunc step n sm reference path D axis start :
  gauss_legendre leggauss -> sorts_indices argsort -> (1 <= deg)%nat -> Nat.Odd n -> 0 < step -> lower reference = frame_name sm ->
  -10 ^ 7 <= start -> start + INR n * step / 24 < 36159.75 -> dipole_to_vec cfg DNone = Ok axis -> unit_vec axis -> 1 / 4 <= vz axis ^ 2 -> path <> ""%string ->
  exists out w, rotate_gauss_fft_to oob leggauss argsort cfg file deg deg qfunc (Some step) (Some n) None (Some path) (Some reference) (FlagBool true) (Some start) D =
      Ok (out, put D (npz_name path) w) /\
    rf_dipole (w_file w) = dipole_list cfg /\
    rot_file (w_file w) (half n) (half n) (deg * (deg + 2)) (deg * (deg + 2)) /\
    forall (time : nd R) j, (forall i, valid (sh time) i -> (j i < n)%nat /\ at_ time i = sample_time step 0 (j i)) ->
    forall i, valid (sh time) i -> exists e1 e2 e3, frame_of (frame_kind sm) axis (sun_direction (at_ time i + start)) e1 e2 e3 /\
      right_handed_orthonormal e1 e2 e3 /\
      exists Mx, rot deg deg (e1, e2, e3) Mx /\
        forall r c, (r < deg * (deg + 2))%nat -> (c < deg * (deg + 2))%nat -> Mx r c = file_rotation (w_file w) (half n) (half n) External (at_ time i) r c.
Proof.
  intros HG Hs Hd HO Hst Hr B1 B2 Hax Hu Hz Hp.
  assert (FR : forall (time : nd R) j, (forall i, valid (sh time) i -> (j i < n)%nat /\ at_ time i = sample_time step 0 (j i)) ->
     forall i, valid (sh time) i -> (j i < n)%nat /\ at_ time i = sample_time step start (j i) - start).
  { intros time j H i Hi. destruct (H i Hi) as (A & ->). split; [exact A|]. unfold sample_time. lra. }
  destruct (fft_frames oob leggauss argsort cfg file deg deg qfunc step n sm reference (FlagBool true) start axis HG Hs Hd Hd HO Hst (or_introl eq_refl) Hr B1 B2 Hax Hu Hz
    (mknd [0]%nat (fun _ => 0)) (fun _ => 0%nat)) as (F & S & FI & SI & _ & E & _).
  { intros i Hi. exfalso. cbn [sh] in Hi. inversion Hi as [|? ? ? ? X]. lia. }
  destruct (fft_to_writes _ _ _ _ _ _ _ _ _ _ _ _ _ _ D _ _ _ _ path E Hp) as (w & Ew & Ww).
  exists (F, S, FI, SI), w. split; [exact Ew|]. rewrite Ww. cbn [rf_dipole]. split; [reflexivity|].
  destruct (fft_shapes _ _ _ _ _ _ _ _ _ _ _ _ _ _ _ _ _ _ E) as (S1 & S2 & S3 & S4).
  assert (RF : rot_file (mkrot F S FI SI (FlagArray (truthy (FlagBool true))) (dipole_list cfg)) (half n) (half n) (deg * (deg + 2)) (deg * (deg + 2))) by (split; assumption || reflexivity).
  split; [exact RF|]. intros time j Ht i Hi.
  destruct (fft_frames oob leggauss argsort cfg file deg deg qfunc step n sm reference (FlagBool true) start axis HG Hs Hd Hd HO Hst (or_introl eq_refl) Hr B1 B2 Hax Hu Hz
    time j (FR time j Ht)) as (F' & S' & FI' & SI' & M & E' & EM & _ & HM).
  pose proof (eq_trans (eq_sym E) E') as EE. injection EE as <- <- <- <-. clear E'.
  destruct (HM i Hi) as (e1 & e2 & e3 & Fr & RR). exists e1, e2, e3. split; [exact Fr|]. split; [destruct sm; apply Fr|].
  exists (fun r c => at_ M (i ++ [r; c])). split; [exact RR|]. intros r c Hrr Hcc.
  destruct (file_value _ _ _ _ _ External time RF) as (M' & E1 & _ & E3). cbn [rf_freq rf_spec rf_scaled] in E1.
  assert (EX : Ok M = Ok M') by (rewrite <- EM, <- E1; reflexivity). assert (M = M') as <- by (injection EX; auto).
  apply E3; assumption.
Qed.

(** ** GSM *)
Theorem gsm_own_file oob leggauss argsort cfg file deg qfunc step n reference path D axis start :
  gauss_legendre leggauss -> sorts_indices argsort -> (1 <= deg)%nat -> Nat.Odd n -> 0 < step -> lower reference = "gsm"%string ->
  -10 ^ 7 <= start -> start + INR n * step / 24 < 36159.75 -> dipole_to_vec cfg DNone = Ok axis -> unit_vec axis -> 1 / 4 <= vz axis ^ 2 -> path <> ""%string ->
  exists out D', rotate_gauss_fft_to oob leggauss argsort cfg file deg deg qfunc (Some step) (Some n) None (Some path) (Some reference) (FlagBool true) (Some start) D = Ok (out, D') /\
  forall sm rc r_surf c gsm (time : nd R) j radius theta phi nmax F x,
    let E := env_of D' (npz_name path) sm rc cfg r_surf oob in let L := asked nmax deg in
    ch_gsm c = Some gsm -> ch_static c <> None -> List.length gsm = (deg * (deg + 2))%nat -> elems time <> [] -> nmax <> Some 0%nat ->
    (forall i, valid (sh time) i -> (j i < n)%nat /\ at_ time i = sample_time step 0 (j i)) ->
    synth_values_gsm E c time radius theta phi nmax (Some "external"%string) None = Ok F ->
    (forall t, In t (elems theta) -> 0 <= t <= 180) -> valid (f_sh F) x ->
    exists e1 e2 e3, frame_of GSM axis (sun_direction (bread time x + start)) e1 e2 e3 /\
    forall theta' phi', 0 <= theta' <= 180 -> same_direction (e1, e2, e3) (bread theta x) (bread phi x) theta' phi' ->
    exists F', synth_values oob r_surf (cvec gsm) (scalar (bread radius x)) (scalar theta') (scalar phi')
        (Some 1%Z) (Some (Z.of_nat L)) (Some (Z.of_nat L)) (Some "external"%string) false = Ok F' /\
      field_vector theta' phi' (f_r F' []) (f_t F' []) (f_p F' []) = resolve e1 e2 e3 (field_vector (bread theta x) (bread phi x) (f_r F x) (f_t F x) (f_p F x)).
Proof.
  intros HG Hs Hd HO Hst Hr B1 B2 Hax Hu Hz Hp.
  destruct (file_rotates oob leggauss argsort cfg file deg qfunc step n false reference path D axis start HG Hs Hd HO Hst Hr B1 B2 Hax Hu Hz Hp) as (out & w & Ew & Dw & Rw & Hw).
  exists out, (put D (npz_name path) w). split; [exact Ew|].
  intros sm rc r_surf c gsm time j radius theta phi nmax F x E L Hg Hst' HL Hte Hn0 Ht EF Hth V.
  assert (EG : e_gsm E = Some (w_file w)) by (unfold E, env_of; cbn [e_gsm]; rewrite put_same; reflexivity).
  assert (HA : (1 <= L <= deg)%nat) by (unfold L, asked; destruct nmax as [[|m]|]; [congruence|lia|lia]).
  destruct (gsm_value E c (w_file w) gsm (half n) (half n) deg time nmax External Hg Hst' EG Dw Hte HL Rw) as (K & K1 & K2 & K3 & K4).
  cbn [src_name] in K1. unfold synth_values_gsm in EF. cbn in EF. cbn in K1. rewrite K1 in EF. cbn [bind] in EF. unfold synth_of in EF.
  destruct (sv_at _ _ _ _ _ _ _ _ _ _ _ _ EF) as (d & Dd & Sd & _). destruct (decode_nogrid _ _ _ _ _ _ _ _ _ Dd) as (_ & _ & _ & BB & _).
  assert (VT : valid (sh time) (bidx (sh time) x)).
  { rewrite <- Sd in BB. apply broadcast_fits in BB. rewrite K2 in BB. exact (Forall_inv (Forall_inv_tail (Forall_inv_tail (Forall_inv_tail BB))) x V). }
  destruct (Hw time j Ht _ VT) as (e1 & e2 & e3 & Fr & Ho & Mx & RM & EM). exists e1, e2, e3. split; [exact Fr|].
  intros theta' phi' Ht' D'.
  apply (rotated_row oob r_surf K gsm L deg e1 e2 e3 Mx radius theta phi F x theta' phi' External Ho RM HL HA K3); try assumption.
  intros r Hr'. rewrite K2, K4 by assumption. unfold times. rewrite HL. apply Rsum_map_ext. intros q Hq. apply in_seq in Hq. rewrite EM; [reflexivity| |lia].
  rewrite K3 in Hr'. nia.
Qed.
