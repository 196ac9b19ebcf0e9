(** C148: SM, the dipole, names, and files written without [scaled]. *)
From Coq Require Import Reals List Arith ZArith String Ascii Bool Lia Lra Permutation.
From Coquelicot Require Import Coquelicot.
From Verif Require Import M_Prelude M_ND Spec_Legendre Spec_Field Spec_Analysis Spec_Coord Spec_RotField Spec_Rotate Spec_PP Spec_Chaos M_Coord P_Coord P_Coord2 P_Coord3 M_Legendre
  M_Synth M_SynthArr M_PP M_Spectrum M_Model M_Rotate M_Analysis M_Chaos M_RotFile P_Synth P_Spline P_SynthArr P_ND P_Bcast P_SynthClosed P_SynthProps P_SynthProps2 P_SHC2 P_RotSH P_RotGauss P_RotOrtho P_RotProps W_Analysis
  P_Rotate P_Rotate2 P_Chaos P_ChaosErr P_Chaos4 P_Chaos5 P_Chaos6 P_RotField P_RotField2 P_RotFile.
Import ListNotations.
Open Scope R_scope.

(** ** SM *)
Definition sm_coeff sm q10 q11 s11 (p0 p1 p2 : nat) (rc t : R) (j : nat) : R :=
  match j with
  | 0%nat => rc * nth 0 sm 0 + baseline q10 p0 t
  | 1%nat => rc * nth 1 sm 0 + baseline q11 p1 t
  | 2%nat => rc * nth 2 sm 0 + baseline s11 p2 t
  | _ => nth j sm 0
  end.
Theorem sm_own_file oob leggauss argsort cfg file deg qfunc step n reference path D axis start :
  gauss_legendre leggauss -> sorts_indices argsort -> (1 <= deg)%nat -> Nat.Odd n -> 0 < step -> lower reference = "sm"%string ->
  -10 ^ 7 <= start -> start + INR n * step / 24 < 36159.75 -> dipole_to_vec cfg DNone = Ok axis -> unit_vec axis -> 1 / 4 <= vz axis ^ 2 -> path <> ""%string ->
  exists out D', rotate_gauss_fft_to oob leggauss argsort cfg file deg deg qfunc (Some step) (Some n) None (Some path) (Some reference) (FlagBool true) (Some start) D = Ok (out, D') /\
  forall gsm tab r_surf c sm q10 q11 s11 (time : nd R) j radius theta phi rc rc_i nmax F x p0 p1 p2,
    let E := env_of D' gsm (npz_name path) tab cfg r_surf oob in let L := asked nmax deg in let i := bidx (sh time) x in
    ch_sm c = Some sm -> ch_delta c = Some (q10, q11, s11) ->
    good_breaks (d_breaks q10) -> good_breaks (d_breaks q11) -> good_breaks (d_breaks s11) ->
    List.length sm = (deg * (deg + 2))%nat -> elems time <> [] -> nmax <> Some 0%nat -> bfits (sh rc) (sh time) ->
    (forall i, valid (sh time) i -> (j i < n)%nat /\ at_ time i = sample_time step 0 (j i)) ->
    synth_values_sm E c time radius theta phi (Some rc) rc_i nmax (Some "external"%string) None = Ok F ->
    (forall t, In t (elems theta) -> 0 <= t <= 180) -> valid (f_sh F) x ->
    used_piece (d_breaks q10) p0 (at_ time i) -> used_piece (d_breaks q11) p1 (at_ time i) -> used_piece (d_breaks s11) p2 (at_ time i) ->
    let v := map (sm_coeff sm q10 q11 s11 p0 p1 p2 (bread rc i) (at_ time i)) (seq 0 (deg * (deg + 2))) in
    exists e1 e2 e3, frame_of SM axis (sun_direction (bread time x + start)) e1 e2 e3 /\
    forall theta' phi', 0 <= theta' <= 180 -> same_direction (e1, e2, e3) (bread theta x) (bread phi x) theta' phi' ->
    exists F', synth_values oob r_surf (cvec v) (scalar (bread radius x)) (scalar theta') (scalar phi')
        (Some 1%Z) (Some (Z.of_nat L)) (Some (Z.of_nat L)) (Some "external"%string) false = Ok F' /\
      field_vector theta' phi' (f_r F' []) (f_t F' []) (f_p F' []) = resolve e1 e2 e3 (field_vector (bread theta x) (bread phi x) (f_r F x) (f_t F x) (f_p F x)).
Proof.
  intros HG Hs Hd HO Hst Hr B1 B2 Hax Hu Hz Hp.
  destruct (file_rotates oob leggauss argsort cfg file deg qfunc step n true reference path D axis start HG Hs Hd HO Hst Hr B1 B2 Hax Hu Hz Hp) as (out & w & Ew & Dw & Rw & Hw).
  exists out, (put D (npz_name path) w). split; [exact Ew|].
  intros gsm tab r_surf c sm q10 q11 s11 time j radius theta phi rc rc_i nmax F x p0 p1 p2 E L i Hg Hdl G0 G1 G2 HL Hte Hn0 Hrc Ht EF Hth V U0 U1 U2 v.
  assert (EG : e_sm E = Some (w_file w)) by (unfold E, env_of; cbn [e_sm]; rewrite put_same; reflexivity).
  assert (HA : (1 <= L <= deg)%nat) by (unfold L, asked; destruct nmax as [[|m]|]; [congruence|lia|lia]).
  destruct (sm_external_full E c (w_file w) sm q10 q11 s11 (half n) (half n) deg time nmax rc Hg Hdl G0 G1 G2 EG Dw Hte Hd HL Rw Hrc) as (K & K1 & K2 & K3 & K4).
  unfold synth_values_sm in EF. cbn in EF. rewrite K1 in EF. cbn [bind] in EF. unfold synth_of in EF.
  destruct (sv_at _ _ _ _ _ _ _ _ _ _ _ _ EF) as (d & Dd & Sd & _). destruct (decode_nogrid _ _ _ _ _ _ _ _ _ Dd) as (_ & _ & _ & BB & _).
  assert (VT : valid (sh time) i).
  { unfold i. rewrite <- Sd in BB. apply broadcast_fits in BB. rewrite K2 in BB. exact (Forall_inv (Forall_inv_tail (Forall_inv_tail (Forall_inv_tail BB))) x V). }
  destruct (Hw time j Ht _ VT) as (e1 & e2 & e3 & Fr & Ho & Mx & RM & EM). exists e1, e2, e3. split; [exact Fr|].
  intros theta' phi' Ht' D'.
  assert (Lv : List.length v = (deg * (deg + 2))%nat) by (unfold v; rewrite map_length, seq_length; reflexivity).
  apply (rotated_row oob r_surf K v L deg e1 e2 e3 Mx radius theta phi F x theta' phi' External Ho RM Lv HA K3); try assumption.
  intros r Hr'. rewrite K2. fold i. rewrite (K4 i p0 p1 p2 VT U0 U1 U2 r Hr'). unfold times. rewrite Lv. apply Rsum_map_ext. intros q Hq. apply in_seq in Hq.
  rewrite EM; [|rewrite K3 in Hr'; nia|lia]. cbn [file_rotation]. f_equal. unfold v.
  symmetry. etransitivity; [apply (nth_indep _ 0 (sm_coeff sm q10 q11 s11 p0 p1 p2 (bread rc i) (at_ time i) 0%nat)); rewrite map_length, seq_length; lia|].
  rewrite map_nth, seq_nth by lia. reflexivity.
Qed.

(** ** What is written *)
Theorem file_content oob leggauss argsort cfg file nmax kmax qfunc step N filter path reference sc start D F S FI SI D' :
  rotate_gauss_fft_to oob leggauss argsort cfg file nmax kmax qfunc step N filter (Some path) reference sc start D = Ok ((F, S, FI, SI), D') -> path <> ""%string ->
  exists w, D' (npz_name path) = Some w /\ w_file w = mkrot F S FI SI (FlagArray (truthy sc)) (dipole_list cfg) /\
    w_step w = (match step with None => 1 | Some s => s end) /\ w_start w = (match start with None => 0 | Some d => d end) /\
    w_reference w = (match reference with None => "gsm"%string | Some r => r end) /\
    (w_filter w = match filter with Some f => f | None => half (w_N w) end)%nat /\
    sh F = [w_filter w; nmax * (nmax + 2); kmax * (kmax + 2)]%nat /\ sh S = sh F /\ sh FI = sh F /\ sh SI = sh F /\
    (forall name, name <> npz_name path -> D' name = D name).
Proof.
  intros H Hp. unfold rotate_gauss_fft_to in H. destruct (rotate_gauss_fft _ _ _ _ _ _ _ _ _ _ _ _ _ _) as [[[[F0 S0] FI0] SI0]|] eqn:E; [|discriminate].
  cbn [bind] in H. rewrite (proj2 (String.eqb_neq path "") Hp) in H. injection H as -> -> -> -> <-.
  destruct (fft_shapes _ _ _ _ _ _ _ _ _ _ _ _ _ _ _ _ _ _ E) as (S1 & S2 & S3 & S4).
  eexists. split; [apply put_same|]. cbn [w_file w_step w_start w_reference w_filter w_N]. repeat (split; [first [reflexivity|assumption|congruence]|]).
  intros name Hn. apply put_other, Hn.
Qed.
Theorem nothing_written oob leggauss argsort cfg file nmax kmax qfunc step N filter save_to reference sc start D out D' : save_to = None \/ save_to = Some ""%string ->
  rotate_gauss_fft_to oob leggauss argsort cfg file nmax kmax qfunc step N filter save_to reference sc start D = Ok (out, D') -> D' = D.
Proof.
  intros Hs H. unfold rotate_gauss_fft_to in H. destruct (rotate_gauss_fft _ _ _ _ _ _ _ _ _ _ _ _ _ _) as [[[[F0 S0] FI0] SI0]|]; [|discriminate].
  cbn [bind] in H. destruct Hs as [-> | ->]; cbn in H; injection H as _ <-; reflexivity.
Qed.
Theorem returned_anyway oob leggauss argsort cfg file nmax kmax qfunc step N filter save_to reference sc start D :
  bind (rotate_gauss_fft_to oob leggauss argsort cfg file nmax kmax qfunc step N filter save_to reference sc start D) (fun r => Ok (fst r)) =
  rotate_gauss_fft oob leggauss argsort cfg file nmax kmax qfunc step N filter reference sc start.
Proof.
  unfold rotate_gauss_fft_to. destruct (rotate_gauss_fft _ _ _ _ _ _ _ _ _ _ _ _ _ _) as [[[[F0 S0] FI0] SI0]|]; reflexivity.
Qed.

(** ** Reading *)
Lemma dipole_list_inj a b : dipole_list a = dipole_list b -> a = b.
Proof. destruct a as [[? ?] ?], b as [[? ?] ?]. cbn. intros H. injection H as -> -> ->. reflexivity. Qed.
Theorem other_dipole oob leggauss argsort cfg file nmax kmax qfunc step N filter path reference sc start D out D' :
  rotate_gauss_fft_to oob leggauss argsort cfg file nmax kmax qfunc step N filter (Some path) reference sc start D = Ok (out, D') -> path <> ""%string ->
  forall cfg', cfg' <> cfg -> forall other tab r_surf c time nmax s, elems time <> [] ->
  (forall gsm st, ch_gsm c = Some gsm -> ch_static c = Some st -> synth_coeffs_gsm (env_of D' (npz_name path) other tab cfg' r_surf oob) c time nmax s = Err AssertionError) /\
  (forall sm q10 q11 s11 rc, ch_sm c = Some sm -> ch_delta c = Some (q10, q11, s11) -> d_breaks q10 <> [] -> d_breaks q11 <> [] -> d_breaks s11 <> [] ->
     synth_coeffs_sm (env_of D' other (npz_name path) tab cfg' r_surf oob) c time nmax s rc = Err AssertionError).
Proof.
  destruct out as [[[F S] FI] SI]. intros H Hp cfg' Hc other tab r_surf c time nm s Ht.
  destruct (file_content _ _ _ _ _ _ _ _ _ _ _ _ _ _ _ _ _ _ _ _ _ H Hp) as (w & Ew & Ww & _).
  assert (ND : rf_dipole (w_file w) <> dipole_list cfg') by (rewrite Ww; cbn [rf_dipole]; intros X; apply dipole_list_inj in X; congruence).
  split.
  - intros gsm st Hg Hst. apply (gsm_assert _ c gsm st (w_file w)); try assumption. unfold env_of. cbn [e_gsm]. rewrite Ew. reflexivity.
  - intros sm q10 q11 s11 rc Hg Hdl B0 B1 B2. apply (sm_assert _ c sm q10 q11 s11 (w_file w)); try assumption. unfold env_of. cbn [e_sm]. rewrite Ew. reflexivity.
Qed.

Lemma npz_name_twice s : npz_name (npz_name s) = npz_name s.
Proof.
  unfold npz_name at 2 3. destruct (andb _ _) eqn:E.
  - unfold npz_name. cbv zeta. rewrite E. reflexivity.
  - assert (L : forall a b : string, String.length (a ++ b) = (String.length a + String.length b)%nat) by (induction a; intros; cbn; congruence).
    assert (P : forall a b : string, substring (String.length a) (String.length b) (a ++ b) = b).
    { induction a; intros b; cbn [String.length append]; [|apply IHa]. induction b; cbn; [reflexivity|]. f_equal. exact IHb. }
    unfold npz_name. rewrite L. change (String.length ".npz") with 4%nat. replace (String.length s + 4 - 4)%nat with (String.length s) by lia.
    pose proof (P s ".npz"%string) as X. change (String.length ".npz") with 4%nat in X. rewrite X.
    destruct (Nat.leb_spec 4 (String.length s + 4)); [reflexivity|lia].
Qed.

(** the name without the ending *)
Theorem bare_name oob leggauss argsort cfg file nmax kmax qfunc step N filter path reference sc start D out D' :
  rotate_gauss_fft_to oob leggauss argsort cfg file nmax kmax qfunc step N filter (Some path) reference sc start D = Ok (out, D') ->
  npz_name path <> path -> D path = None ->
  forall cfg' other tab r_surf c time nmax s, elems time <> [] ->
  (forall gsm st, ch_gsm c = Some gsm -> ch_static c = Some st -> synth_coeffs_gsm (env_of D' path other tab cfg' r_surf oob) c time nmax s = Err FileNotFoundError) /\
  (forall sm q10 q11 s11 rc, ch_sm c = Some sm -> ch_delta c = Some (q10, q11, s11) -> d_breaks q10 <> [] -> d_breaks q11 <> [] -> d_breaks s11 <> [] ->
     synth_coeffs_sm (env_of D' other path tab cfg' r_surf oob) c time nmax s rc = Err FileNotFoundError).
Proof.
  destruct out as [[[F S] FI] SI]. intros H Hne HD cfg' other tab r_surf c time nm s Ht.
  assert (E : D' path = None).
  { destruct (string_dec path "") as [->|Hp].
    - rewrite (nothing_written _ _ _ _ _ _ _ _ _ _ _ _ _ _ _ _ _ _ (or_intror eq_refl) H). exact HD.
    - destruct (file_content _ _ _ _ _ _ _ _ _ _ _ _ _ _ _ _ _ _ _ _ _ H Hp) as (w & _ & _ & _ & _ & _ & _ & _ & _ & _ & _ & HO).
      rewrite HO by congruence. exact HD. }
  split.
  - intros gsm st Hg Hst. refine (proj1 (missing_files _ c gsm st [] (mkdelta [] 0 (fun _ _ => 0)) (mkdelta [] 0 (fun _ _ => 0)) (mkdelta [] 0 (fun _ _ => 0)) time nm s None Ht) Hg Hst _).
    unfold env_of. cbn [e_gsm]. rewrite E. reflexivity.
  - intros sm q10 q11 s11 rc Hg Hdl B0 B1 B2. refine (proj2 (missing_files _ c [] (model_init None None None None) sm q10 q11 s11 time nm s rc Ht) Hg Hdl B0 B1 B2 _).
    unfold env_of. cbn [e_sm]. rewrite E. reflexivity.
Qed.
