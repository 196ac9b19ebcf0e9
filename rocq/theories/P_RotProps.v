(** rotate_gauss and rotate_gauss_fft: what they return. *)
From Coq Require Import Reals List Arith Lia Lra ZArith Bool String.
From Coquelicot Require Import Complex.
From Verif Require Import M_Prelude M_ND Spec_Legendre Spec_Field Spec_Analysis Spec_Coord M_Coord M_Legendre M_Rotate M_Analysis
  P_Legendre2 P_LegendreTab P_Synth P_Spline P_Quad P_Gauss P_SHC2 P_Analysis P_Coord3 P_Coord2 P_RotSH P_RotGauss P_Addition P_RotOrtho P_Analysis2
  Spec_Rotate P_Rotate P_Rotate2 P_Rotate3 P_Rotate4 W_Rotate P_Coord9.
Import ListNotations.
Open Scope R_scope.

Lemma lay_In {A} (u v : nat -> nat -> A) N x : In x (lay u v N) ->
  exists n m, (1 <= n <= N)%nat /\ (m <= n)%nat /\ (x = u n m \/ x = v n m).
Proof.
  intros I. unfold lay in I. apply in_flat_map in I. destruct I as (n & Hn & I). apply in_seq in Hn. exists n.
  destruct I as [<-|I]; [exists 0%nat; split; [lia|]; split; [lia|left; reflexivity]|].
  unfold pairs in I. apply in_flat_map in I. destruct I as (m & Hm & I). apply in_seq in Hm. exists m. split; [lia|]. split; [lia|].
  destruct I as [<-|[<-|[]]]; [left|right]; reflexivity.
Qed.

Lemma rotate_gauss_rot oob leggauss nmax kmax bases : gauss_legendre leggauss -> (1 <= nmax)%nat -> (1 <= kmax)%nat ->
  List.Forall is_rho bases ->
  exists Ms, rotate_gauss oob leggauss nmax kmax bases = Ok Ms /\
    Forall2 (fun b M => is_matrix (nmax * (nmax + 2)) (kmax * (kmax + 2)) M /\ rot nmax kmax b (entry M)) bases Ms.
Proof.
  intros HG Hn Hk HB. unfold rotate_gauss. set (nt := ((nmax + kmax + 1) / 2 + 1)%nat).
  pose proof (HG nt ltac:(lia)) as G. destruct (leggauss nt) as [x w] eqn:EL. cbn [fst snd] in G.
  destruct (grid_tables oob nmax nt x w Hn G) as (Pnm & E & L & HP). rewrite E. cbn [bind].
  induction HB as [|b bs Hb HB IH].
  - exists []. split; [reflexivity|constructor].
  - destruct IH as (Ms & E' & F). destruct (rotate_columns_ok oob nmax kmax x w Pnm b Hk G L HP Hb) as (C & S & EC & H).
    fold nt in EC. exists (lay C S kmax :: Ms). split.
    + cbn [mapM]. rewrite EC. cbn [bind]. rewrite E'. reflexivity.
    + constructor; [|exact F]. split; [|apply columns_rot, H]. split; [apply lay_length|].
      apply List.Forall_forall. intros c Hc. apply lay_In in Hc. destruct Hc as (k & l & Hk' & Hl & Ec).
      destruct (H k l Hk' Hl) as [(g1 & h1 & Ec1 & _) (g2 & h2 & Ec2 & _)]. rewrite Ec1, Ec2 in Ec.
      destruct Ec as [-> | ->]; apply lay_length.
Qed.

Lemma rot_times N K b M v : rot N K b M -> List.length v = (K * (K + 2))%nat -> is_rho b ->
  forall theta phi theta' phi', same_direction b theta phi theta' phi' ->
  expand N (times M v) theta phi = expand (Nat.min N K) (fun i => nth i v 0) theta' phi'.
Proof.
  intros [A _] Lv Hb t p t' p' D. rewrite !expand_Y. unfold times. rewrite Lv.
  transitivity (Rsum (map (fun c => nth c v 0 * Rsum (map (fun j => M j c * Y j t p) (seq 0 (N * (N + 2))))) (seq 0 (K * (K + 2))))).
  { transitivity (Rsum (map (fun j => Rsum (map (fun c => nth c v 0 * (M j c * Y j t p)) (seq 0 (K * (K + 2))))) (seq 0 (N * (N + 2))))).
    - apply Rsum_map_ext. intros j _. rewrite Rmult_comm, <- Rsum_map_scal. apply Rsum_map_ext. intros; ring.
    - rewrite Rsum_swap. apply Rsum_map_ext. intros c _. apply Rsum_map_scal. }
  transitivity (Rsum (map (fun c => (if (c <? N * (N + 2))%nat then nth c v 0 else 0) * Y c t' p') (seq 0 (K * (K + 2))))).
  { apply Rsum_map_ext. intros c Hc. apply in_seq in Hc. rewrite (A c t p) by lia. destruct (Nat.ltb_spec c (N * (N + 2))); [|ring].
    f_equal. apply Y_direction. rewrite (q_direction b t p Hb). destruct b as [[e1 e2] e3]. symmetry. exact D. }
  destruct (Nat.le_ge_cases N K) as [H|H].
  - rewrite (Nat.min_l N K H). symmetry. apply Y_pad, dim_mono, H.
  - rewrite (Nat.min_r N K H). apply Rsum_map_ext. intros c Hc. apply in_seq in Hc. pose proof (dim_mono K N H).
    destruct (Nat.ltb_spec c (N * (N + 2))); [reflexivity|lia].
Qed.

Lemma rotate_gauss_empty oob leggauss nmax kmax bases : gauss_legendre leggauss -> bases <> [] -> (nmax = 0 \/ kmax = 0)%nat ->
  rotate_gauss oob leggauss nmax kmax bases = Err IndexError.
Proof.
  intros HG NE H. unfold rotate_gauss. set (nt := ((nmax + kmax + 1) / 2 + 1)%nat).
  pose proof (HG nt ltac:(lia)) as G. destruct (leggauss nt) as [x w] eqn:EL. cbn [fst snd] in G.
  assert (x <> []) as NX by (destruct G as (L & _); intros ->; cbn in L; lia).
  destruct (Nat.eq_dec nmax 0) as [->|Hn]; [rewrite grid_tables_0 by exact NX; reflexivity|].
  assert (kmax = 0)%nat as -> by lia. destruct (grid_tables oob nmax nt x w ltac:(lia) G) as (Pnm & E & _). rewrite E. cbn [bind].
  destruct bases as [|b bs]; [congruence|]. cbn [mapM]. unfold rotate_columns.
  destruct x as [|x0 x]; [congruence|]. cbn [grid_theta map mapM].
  assert (exists m, (2 * nt)%nat = S m) as [m ->] by (exists (2 * nt - 1)%nat; lia). cbn [seq map mapM]. reflexivity.
Qed.

(** ** rotate_gauss_fft *)
Lemma Forall2_nth_d {A B} (P : A -> B -> Prop) l l' da db i : Forall2 P l l' -> (i < List.length l)%nat -> P (nth i l da) (nth i l' db).
Proof.
  intros H. revert i. induction H as [|a b l l' Hab _ IH]; intros i Hi; cbn [List.length] in Hi; [lia|].
  destruct i; [exact Hab|]. apply IH. lia.
Qed.

Definition zero_base : base := (vzero, vzero, vzero).

Lemma fft_end_to_end oob leggauss argsort cfg file nmax kmax qfunc step N reference sc start bases :
  gauss_legendre leggauss -> sorts_indices argsort -> (1 <= nmax)%nat -> (1 <= kmax)%nat -> Nat.Odd N -> 0 < step ->
  (sc = FlagBool true \/ sc = FlagBool false) ->
  (if String.eqb (lower reference) "gsm" then basevectors_gsm cfg (map (sample_time step start) (seq 0 N)) DNone
   else if String.eqb (lower reference) "sm" then basevectors_sm cfg (map (sample_time step start) (seq 0 N)) DNone
   else Err ValueError) = Ok bases ->
  List.length bases = N -> List.Forall is_rho bases ->
  forall time j, (forall i, valid (sh time) i -> (j i < N)%nat /\ at_ time i = sample_time step start (j i) - start) ->
  exists F S FI SI M,
    rotate_gauss_fft oob leggauss argsort cfg file nmax kmax qfunc (Some step) (Some N) None (Some reference) sc (Some start) = Ok (F, S, FI, SI) /\
    synth_rotate_gauss time F S sc = Ok M /\ sh M = (sh time ++ [nmax * (nmax + 2); kmax * (kmax + 2)])%nat%list /\
    forall i, valid (sh time) i -> rot nmax kmax (nth (j i) bases zero_base) (fun r c => at_ M (i ++ [r; c])).
Proof.
  intros HG Hs Hn Hk HO Hst Hsc EB LB HB time j Ht.
  destruct (rotate_gauss_rot oob leggauss nmax kmax bases HG Hn Hk HB) as (Ms & EM & FM).
  unfold rotate_gauss_fft. rewrite EB. cbn [bind]. rewrite EM. cbn [bind].
  match goal with |- context [spectra _ _ _ _ _ ?r ?c ?x ?q] => set (rows := r); set (cols := c); set (xx := x); set (qq := q) end.
  destruct (spectra_ok argsort N step sc rows cols xx qq) as (F & S & FI & SI & E).
  assert (P : proper sc) by (right; destruct Hsc as [-> | ->]; eauto).
  destruct (spectra_at_samples argsort N step sc rows cols xx qq F S FI SI time start j Hs) as (M & E1 & E2 & E3); try assumption.
  { destruct HO as [K ->]. lia. }
  exists F, S, FI, SI, M. split; [exact E|]. split; [exact E1|]. split; [exact E2|]. intros i Hi. destruct (Ht i Hi) as [Hj _].
  pose proof (Forall2_nth_d _ _ _ zero_base [] (j i) FM ltac:(lia)) as [[LM SM] [A B]].
  assert (X : forall r c, (r < rows)%nat -> (c < cols)%nat -> at_ M (i ++ [r; c])%list = entry (nth (j i) Ms []) r c).
  { intros r c Hr Hc. rewrite (E3 i r c Hi Hr Hc). destruct (Nat.even N) eqn:EN.
    - apply Nat.even_spec in EN. exfalso. exact (Nat.Even_Odd_False N EN HO).
    - unfold xx. ring. }
  split.
  - intros k theta phi Hk'. cbv zeta. rewrite <- (A k theta phi Hk'). apply Rsum_map_ext. intros r Hr. apply in_seq in Hr.
    rewrite X by (unfold rows, cols; lia). reflexivity.
  - intros n k c r D Hnn Hkk Hr Hc. rewrite X by (unfold rows, cols; nia). apply (B n k); assumption.
Qed.

Definition frame_kind (sm : bool) : ref_system := if sm then SM else GSM.
Definition frame_name (sm : bool) : string := if sm then "sm"%string else "gsm"%string.

Lemma fft_frames oob leggauss argsort cfg file nmax kmax qfunc step N sm reference sc start axis :
  gauss_legendre leggauss -> sorts_indices argsort -> (1 <= nmax)%nat -> (1 <= kmax)%nat -> Nat.Odd N -> 0 < step ->
  (sc = FlagBool true \/ sc = FlagBool false) -> lower reference = frame_name sm ->
  -10 ^ 7 <= start -> start + INR N * step / 24 < 36159.75 -> dipole_to_vec cfg DNone = Ok axis -> unit_vec axis -> 1 / 4 <= vz axis ^ 2 ->
  forall time j, (forall i, valid (sh time) i -> (j i < N)%nat /\ at_ time i = sample_time step start (j i) - start) ->
  exists F S FI SI M,
    rotate_gauss_fft oob leggauss argsort cfg file nmax kmax qfunc (Some step) (Some N) None (Some reference) sc (Some start) = Ok (F, S, FI, SI) /\
    synth_rotate_gauss time F S sc = Ok M /\ sh M = (sh time ++ [nmax * (nmax + 2); kmax * (kmax + 2)])%nat%list /\
    forall i, valid (sh time) i -> exists e1 e2 e3, frame_of (frame_kind sm) axis (sun_direction (at_ time i + start)) e1 e2 e3 /\
      rot nmax kmax (e1, e2, e3) (fun r c => at_ M (i ++ [r; c])).
Proof.
  intros HG Hs Hn Hk HO Hst Hsc Hr Hbeg Hend Hax Hu Hz time j Ht.
  set (times := map (sample_time step start) (seq 0 N)).
  assert (RT : forall t, In t times -> -10 ^ 7 <= t < 36159.75).
  { intros t H. apply in_map_iff in H. destruct H as (k & <- & Hk'). apply in_seq in Hk'. unfold sample_time.
    pose proof (pos_INR k) as P0. assert (P1 : INR k <= INR N) by (apply le_INR; lia). assert (INR k * step <= INR N * step) by (apply Rmult_le_compat_r; lra).
    assert (0 <= INR k * step) by (apply Rmult_le_pos; lra).
    lra. }
  destruct (gsm_sm_always cfg times DNone axis RT Hax Hu Hz) as (bg & bs & Eg & Es & Fg & Fs).
  set (bases := if sm then bs else bg).
  assert (FB : Forall2 (fun t b => let '(e1, e2, e3) := b in frame_of (frame_kind sm) axis (sun_direction t) e1 e2 e3) times bases).
  { unfold bases. destruct sm; [exact Fs|exact Fg]. }
  assert (LB : List.length bases = N) by (pose proof (Forall2_length _ _ _ FB) as X; unfold times in X; rewrite map_length, seq_length in X; exact (eq_sym X)).
  assert (RB : List.Forall is_rho bases).
  { clear - FB. induction FB as [|t b ts bb H _ IH]; constructor; [|exact IH]. destruct b as [[e1 e2] e3]. destruct sm; apply H. }
  destruct (fft_end_to_end oob leggauss argsort cfg file nmax kmax qfunc step N reference sc start bases HG Hs Hn Hk HO Hst Hsc) with (time := time) (j := j)
    as (F & S & FI & SI & M & E1 & E2 & E3 & E4).
  - rewrite Hr. fold times. unfold bases. destruct sm; cbn; assumption.
  - exact LB.
  - exact RB.
  - intros i Hi. destruct (Ht i Hi). split; [assumption|lra].
  - exists F, S, FI, SI, M. split; [exact E1|]. split; [exact E2|]. split; [exact E3|]. intros i Hi. destruct (Ht i Hi) as [Hj Et].
    pose proof (Forall2_nth_d _ _ _ 0 zero_base (j i) FB ltac:(unfold times; rewrite map_length, seq_length; lia)) as W. specialize (E4 i Hi).
    destruct (nth (j i) bases zero_base) as [[e1 e2] e3]. exists e1, e2, e3. split; [|exact E4].
    rewrite Et. replace (sample_time step start (j i) - start + start) with (sample_time step start (j i)) by ring. unfold times in W. rewrite (nth_indep _ 0 (sample_time step start 0)) in W by (rewrite map_length, seq_length; exact Hj).
    rewrite map_nth, seq_nth in W by exact Hj. exact W.
Qed.

Lemma fft_bad_reference oob leggauss argsort cfg file nmax kmax qfunc step N filter reference sc start :
  lower reference <> "gsm"%string -> lower reference <> "sm"%string ->
  rotate_gauss_fft oob leggauss argsort cfg file nmax kmax qfunc step N filter (Some reference) sc start = Err ValueError.
Proof.
  intros A B. unfold rotate_gauss_fft. destruct (String.eqb_spec (lower reference) "gsm"); [contradiction|].
  destruct (String.eqb_spec (lower reference) "sm"); [contradiction|]. reflexivity.
Qed.

(** ** Analysis of a rotated field *)
Lemma analysis_of_rotated oob leggauss nmax kmax b v M func : gauss_legendre leggauss -> (1 <= nmax)%nat -> (1 <= kmax)%nat ->
  is_rho b -> rot nmax kmax b M -> List.length v = (kmax * (kmax + 2))%nat ->
  (forall theta phi theta' phi', same_direction b theta phi theta' phi' -> func theta phi = expand kmax (fun i => nth i v 0) theta' phi') ->
  sh_analysis oob leggauss func nmax (Some kmax) = Ok (map (times M v) (seq 0 (nmax * (nmax + 2)))).
Proof.
  intros HG Hn Hk Hb R Lv EF. destruct (rot_exists kmax b Hk Hb) as [M' R'].
  set (c := times M' v).
  set (g := fun n m => if Nat.eqb n 0 then 0 else c (g_position n m)). set (h := fun n m => if Nat.eqb n 0 then 0 else c (h_position n m)).
  assert (EF' : forall theta phi, func theta phi = surface 0 kmax g h theta phi).
  { intros theta phi. set (q := geo_to_base theta phi b false).
    assert (D : same_direction b theta phi (fst q) (snd q)).
    { pose proof (q_direction b theta phi Hb) as D. cbv zeta in D. fold q in D. destruct b as [[e1 e2] e3]. exact D. }
    rewrite (EF _ _ _ _ D). pose proof (rot_times kmax kmax b M' v R' Lv Hb _ _ _ _ D) as E. rewrite Nat.min_id in E. rewrite <- E.
    unfold expand. fold c. unfold surface, range_incl at 2 4. replace (kmax + 1 - 0)%nat with (S kmax) by lia. cbn [seq map]. rewrite Rsum_cons.
    rewrite (Rsum_map_0 _ (range_incl 0 0)) by (intros m _; unfold g, h; cbn [Nat.eqb]; ring). rewrite Rplus_0_l.
    replace (kmax + 1 - 1)%nat with kmax by lia. apply Rsum_map_ext. intros n Hi. apply in_seq in Hi. unfold g, h.
    destruct (Nat.eqb_spec n 0); [lia|reflexivity]. }
  rewrite (sh_analysis_any oob leggauss func nmax (Some kmax) kmax g h); [|exact Hn|lia|apply HG; lia|intros; apply EF'].
  f_equal. rewrite gauss_lay, <- lay_positions, lay_map.
  assert (T : forall n i, (1 <= n <= nmax)%nat -> of_degree n i -> (if (n <=? kmax)%nat then c i else 0) = times M v i).
  { intros n i Hi Di. unfold of_degree in Di. destruct (Nat.leb_spec n kmax) as [Hk'|Hk'].
    - unfold c, times. apply Rsum_map_ext. intros l Hl. apply in_seq in Hl. rewrite Lv in Hl.
      rewrite (rot_consistent kmax kmax nmax kmax b M' M R' R i l) by nia. reflexivity.
    - symmetry. apply (rot_above nmax kmax b M v i R Lv). nia. }
  apply lay_ext; intros n m Hi Hm; unfold up_to, g, h; destruct (Nat.eqb_spec n 0); try lia.
  - apply T; [exact Hi|]. apply g_range; lia.
  - apply T; [exact Hi|]. apply h_range; lia.
Qed.
