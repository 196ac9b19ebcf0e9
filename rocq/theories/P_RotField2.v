(** C147: one degree of rotated coefficients; the field vector. *)
From Coq Require Import Reals List Arith ZArith Bool Lia Lra.
From Coquelicot Require Import Coquelicot.
From Verif Require Import M_Prelude M_ND Spec_Legendre Spec_Field Spec_Analysis Spec_Coord M_Coord P_Coord P_Coord2 P_Coord3 M_Legendre P_Legendre P_Legendre2 P_LegendreTab
  M_Synth M_SynthArr M_Rotate M_Analysis P_Synth P_Spline P_SynthClosed P_SynthProps P_SynthProps2 P_SHC2 P_RotSH P_RotGauss P_RotOrtho P_RotProps W_Analysis P_RotField Spec_RotField.
Import ListNotations.
Open Scope R_scope.

Lemma block_Y n (c : nat -> R) t p : (1 <= n)%nat ->
  Rsum (map (fun i => c i * Y i t p) (seq (n * n - 1) (2 * n + 1))) = onsphere n (fun m => c (g_position n m)) (fun m => c (h_position n m)) (rad t) (rad p).
Proof.
  intros Hn. rewrite block_positions by exact Hn. cbn [map]. rewrite Rsum_cons, Y_g by lia.
  assert (P : forall a k, (1 <= a)%nat -> (a + k <= n + 1)%nat -> Rsum (map (fun i => c i * Y i t p) (pairs (g_position n) (h_position n) a k)) =
     Rsum (map (fun m => ang (rad p) (fun m => c (g_position n m)) (fun m => c (h_position n m)) m * schmidt n m (rad t)) (seq a k))).
  { intros a k. revert a. induction k as [|k IH]; intros a Ha Hk; [reflexivity|].
    change (pairs ?u ?v a (S k)) with (u a :: v a :: pairs u v (S a) k). cbn [map seq]. rewrite !Rsum_cons, IH by lia.
    rewrite Y_g, Y_h by lia. unfold Yc, Ys, ang. rring. }
  rewrite P by lia. unfold onsphere. rewrite range_incl_0. cbn [seq map]. rewrite Rsum_cons. f_equal.
  - unfold Yc, ang. cbn [INR]. rewrite Rmult_0_l, cos_0, sin_0. rring.
  - unfold range_incl. replace (n + 1 - 1)%nat with n by lia. reflexivity.
Qed.

(** ** One degree of the rotated coefficients *)
Lemma rot_degree N K b M v n t p t' p' : is_rho b -> rot N K b M -> List.length v = (K * (K + 2))%nat -> (1 <= n <= Nat.min N K)%nat ->
  direction t' p' = (let '(e1, e2, e3) := b in resolve e1 e2 e3 (direction t p)) ->
  onsphere n (fun m => times M v (g_position n m)) (fun m => times M v (h_position n m)) (rad t) (rad p) =
  onsphere n (fun m => nth (g_position n m) v 0) (fun m => nth (h_position n m) v 0) (rad t') (rad p').
Proof.
  intros Hb HR Lv Hn D. rewrite <- (block_Y n (times M v)) by lia. rewrite <- (block_Y n (fun i => nth i v 0)) by lia.
  set (bl := seq (n * n - 1) (2 * n + 1)).
  assert (HN : ((n + 1) * (n + 1) - 1 <= N * (N + 2))%nat) by nia.
  assert (HK : ((n + 1) * (n + 1) - 1 <= K * (K + 2))%nat) by nia.
  assert (Hbl : forall i, In i bl -> (n * n - 1 <= i < (n + 1) * (n + 1) - 1)%nat) by (intros i Hi; apply in_seq in Hi; nia).
  assert (W : forall r, In r bl -> times M v r = Rsum (map (fun c => nth c v 0 * M r c) bl)).
  { intros r Hr. apply Hbl in Hr. unfold times. rewrite Lv, (block_sum _ n).
    - apply Rsum_map_ext. intros c Hc. rring.
    - lia.
    - exact HK.
    - intros i Hi Ni. destruct HR as [_ B]. destruct (degree_exists K i Hi) as (k & Hk & Rk).
      rewrite (B n k i r); [rring| |lia|exact Hk|exact Hr|exact Rk]. intros ->. apply Ni, Rk. }
  transitivity (Rsum (map (fun r => Rsum (map (fun c => nth c v 0 * (M r c * Y r t p)) bl)) bl)).
  { apply Rsum_map_ext. intros r Hr. rewrite (W r Hr), Rmult_comm, <- Rsum_map_scal. apply Rsum_map_ext. intros c _. rring. }
  rewrite Rsum_swap. apply Rsum_map_ext. intros c Hc. rewrite Rsum_map_scal. f_equal. apply Hbl in Hc.
  destruct HR as [A B]. specialize (A c t p ltac:(lia)). cbv zeta in A.
  destruct (Nat.ltb_spec c (N * (N + 2))); [|lia].
  transitivity (Y c (fst (geo_to_base t p b false)) (snd (geo_to_base t p b false))).
  - rewrite <- A. symmetry. apply block_sum; [lia|exact HN|].
    intros i Hi Ni. destruct (degree_exists N i Hi) as (k & Hk & Rk). rewrite (B k n c i); [rring| |exact Hk|lia|exact Rk|exact Hc]. intros ->. apply Ni, Rk.
  - apply Y_direction. rewrite (q_direction b t p Hb). destruct b as [[e1 e2] e3]. symmetry. exact D.
Qed.
Lemma du_direction t p : du (rad t) (rad p) = direction t p.
Proof. unfold direction. rewrite !deg_rad. reflexivity. Qed.
Lemma et_south t p : et (rad t) (rad p) = south t p.
Proof. unfold south. rewrite !deg_rad. reflexivity. Qed.
Lemma ep_east p : ep (rad p) = east p.
Proof. unfold east. rewrite !deg_rad. reflexivity. Qed.
Lemma rad_deg_inv x : rad (x * 180 / PI) = x.
Proof. unfold rad. pose proof PI_neq0. match goal with |- ?a = ?b => change (@eq R a b) end. field. assumption. Qed.

(** as functions on space (on the sphere) *)
Lemma rot_harm N K e1 e2 e3 M v n : right_handed_orthonormal e1 e2 e3 -> rot N K (e1, e2, e3) M -> List.length v = (K * (K + 2))%nat -> (1 <= n <= Nat.min N K)%nat ->
  forall t p, harm n (fun m => times M v (g_position n m)) (fun m => times M v (h_position n m)) (du t p) =
    harm n (fun m => nth (g_position n m) v 0) (fun m => nth (h_position n m) v 0) (resolve e1 e2 e3 (du t p)).
Proof.
  intros Hb HR Lv Hn t p. rewrite harm_du.
  destruct (directions_exist (e1, e2, e3) (t * 180 / PI) (p * 180 / PI) Hb) as (t' & p' & D & _).
  pose proof (rot_degree N K (e1, e2, e3) M v n _ _ t' p' Hb HR Lv Hn D) as X. rewrite !rad_deg_inv in X. rewrite X.
  cbn [same_direction] in D. rewrite <- !du_direction, !rad_deg_inv in D. rewrite <- D, harm_du. reflexivity.
Qed.

(** ** The field *)
Lemma vdot_sum {A} (e : vec3) (f : A -> vec3) l : vdot (fold_right (fun a u => vadd (f a) u) vzero l) e = Rsum (map (fun a => vdot (f a) e) l).
Proof. induction l as [|a l IH]; [unfold vdot, vzero; cbn; rring|]. cbn [fold_right map]. rewrite Rsum_cons, <- IH, vdot_add_l. reflexivity. Qed.

Definition degree_r s r (x : R) n : R := rr s r n * (kk s n * x).
Lemma clo_r_sphere s a L g h r t p : clo_r s a 1 L L g h r t p = Rsum (map (fun n => degree_r s (r / a) (onsphere n (g n) (h n) t p) n) (range_incl 1 L)).
Proof.
  unfold clo_r. apply Rsum_map_ext. intros n Hn. apply range_incl_spec in Hn. unfold sum_r, degree_r, onsphere. rewrite Nat.min_l by lia. reflexivity.
Qed.
Lemma clo_t_grad s a L g h r t p (Gr : nat -> vec3 -> vec3) : (forall n, (1 <= n <= L)%nat -> grad3 (harm n (g n) (h n)) (Gr n)) ->
  clo_t s a 1 L L g h r t p = vdot (fold_right (fun n u => vadd (vscale (- rr s (r / a) n) (Gr n (du t p))) u) vzero (range_incl 1 L)) (et t p).
Proof.
  intros HG. rewrite vdot_sum. unfold clo_t. apply Rsum_map_ext. intros n Hn. apply range_incl_spec in Hn.
  rewrite vdot_scale_l, (harm_et _ _ _ _ t p (HG n ltac:(lia))). unfold sum_t. rewrite Nat.min_l by lia.
  rewrite <- Rsum_map_scal, <- Rsum_map_scal. apply Rsum_map_ext. intros m _. rring.
Qed.
Lemma clo_p_grad s a L g h r t p (Gr : nat -> vec3 -> vec3) : (forall n, (1 <= n <= L)%nat -> grad3 (harm n (g n) (h n)) (Gr n)) ->
  clo_p s a 1 L L g h r t p = vdot (fold_right (fun n u => vadd (vscale (- rr s (r / a) n) (Gr n (du t p))) u) vzero (range_incl 1 L)) (ep p).
Proof.
  intros HG. rewrite vdot_sum. unfold clo_p. apply Rsum_map_ext. intros n Hn. apply range_incl_spec in Hn.
  rewrite vdot_scale_l, (harm_ep _ _ _ _ t p (HG n ltac:(lia))). unfold sum_p. rewrite Nat.min_l by lia.
  rewrite <- Rsum_map_scal, <- Rsum_map_scal. apply Rsum_map_ext. intros m _. rring.
Qed.
Lemma grads (g h : nat -> nat -> R) : forall L, exists Gr, forall n, (1 <= n <= L)%nat -> grad3 (harm n (g n) (h n)) (Gr n).
Proof.
  induction L as [|L (Gr & IH)]; [exists (fun _ _ => vzero); intros; lia|]. destruct (harm_grad (S L) (g (S L)) (h (S L))) as (G1 & H1).
  exists (fun n => if (n =? S L)%nat then G1 else Gr n). intros n Hn. destruct (Nat.eqb_spec n (S L)) as [-> |N]; [exact H1|apply IH; lia].
Qed.

Section Field.
Variables (s : src) (a r : R) (L : nat) (g h g' h' : nat -> nat -> R) (e1 e2 e3 : vec3).
Hypothesis Hb : right_handed_orthonormal e1 e2 e3.
Hypothesis HH : forall n, (1 <= n <= L)%nat -> forall t p, harm n (g' n) (h' n) (du t p) = harm n (g n) (h n) (resolve e1 e2 e3 (du t p)).
Lemma field_rotates t p t' p' : du t' p' = resolve e1 e2 e3 (du t p) ->
  clo_r s a 1 L L g h r t' p' = clo_r s a 1 L L g' h' r t p /\
  vadd (vscale (clo_t s a 1 L L g h r t' p') (et t' p')) (vscale (clo_p s a 1 L L g h r t' p') (ep p')) =
  resolve e1 e2 e3 (vadd (vscale (clo_t s a 1 L L g' h' r t p) (et t p)) (vscale (clo_p s a 1 L L g' h' r t p) (ep p))).
Proof.
  intros D. split.
  - rewrite !clo_r_sphere. apply Rsum_map_ext. intros n Hn. apply range_incl_spec in Hn. f_equal.
    rewrite <- !harm_du, HH, D by lia. reflexivity.
  - destruct (grads g h L) as (Gr & HG). destruct (grads g' h' L) as (Gr' & HG').
    rewrite (clo_t_grad _ _ _ _ _ _ t' p' Gr HG), (clo_p_grad _ _ _ _ _ _ t' p' Gr HG), (clo_t_grad _ _ _ _ _ _ t p Gr' HG'), (clo_p_grad _ _ _ _ _ _ t p Gr' HG').
    rewrite (tangential _ e1 e2 e3 t p t' p' Hb D). f_equal.
    assert (TS : forall n, (1 <= n <= L)%nat ->
      vdot (Gr' n (du t p)) (et t p) = vdot (Gr n (du t' p')) (resolve e1 e2 e3 (et t p)) /\ vdot (Gr' n (du t p)) (ep p) = vdot (Gr n (du t' p')) (resolve e1 e2 e3 (ep p))).
    { intros n Hn. rewrite D. exact (two_systems n (g n) (h n) (g' n) (h' n) e1 e2 e3 (Gr n) (Gr' n) t p (HH n Hn) (HG n Hn) (HG' n Hn)). }
    f_equal; f_equal; rewrite !vdot_sum; apply Rsum_map_ext; intros n Hn; apply range_incl_spec in Hn; rewrite !vdot_scale_l; f_equal; symmetry; apply TS; lia.
Qed.
End Field.

(** ** The property *)
Lemma field_vector_frames t p br bt bp : field_vector t p br bt bp = vadd (vscale br (du (rad t) (rad p))) (vadd (vscale bt (et (rad t) (rad p))) (vscale bp (ep (rad p)))).
Proof. unfold field_vector, tangent. rewrite du_direction, et_south, ep_east. reflexivity. Qed.
Lemma resolve_add e1 e2 e3 u v : resolve e1 e2 e3 (vadd u v) = vadd (resolve e1 e2 e3 u) (resolve e1 e2 e3 v).
Proof. unfold resolve. rewrite !vdot_add_r. reflexivity. Qed.
Lemma resolve_scale e1 e2 e3 k v : resolve e1 e2 e3 (vscale k v) = vscale k (resolve e1 e2 e3 v).
Proof. unfold resolve. rewrite !vdot_scale_r. reflexivity. Qed.

Theorem rotated_field oob leggauss nmax kmax b M v L s a radius theta phi theta' phi' F F' x :
  gauss_legendre leggauss -> (1 <= nmax)%nat -> (1 <= kmax)%nat -> right_handed_axes b ->
  rotate_gauss oob leggauss nmax kmax [b] = Ok [M] -> List.length v = (kmax * (kmax + 2))%nat -> (1 <= L <= Nat.min nmax kmax)%nat ->
  let w := map (times (entry M) v) (seq 0 (nmax * (nmax + 2))) in
  synth_values oob a (cvec w) radius theta phi (Some 1%Z) (Some (Z.of_nat L)) (Some (Z.of_nat L)) (Some (src_name s)) false = Ok F ->
  synth_values oob a (cvec v) radius theta' phi' (Some 1%Z) (Some (Z.of_nat L)) (Some (Z.of_nat L)) (Some (src_name s)) false = Ok F' ->
  (forall t, In t (elems theta) -> 0 <= t <= 180) -> (forall t, In t (elems theta') -> 0 <= t <= 180) ->
  valid (f_sh F) x -> valid (f_sh F') x ->
  same_direction b (bread theta x) (bread phi x) (bread theta' x) (bread phi' x) ->
  field_vector (bread theta' x) (bread phi' x) (f_r F' x) (f_t F' x) (f_p F' x) =
  (let '(e1, e2, e3) := b in resolve e1 e2 e3 (field_vector (bread theta x) (bread phi x) (f_r F x) (f_t F x) (f_p F x))).
Proof.
  intros HG Hn Hk Hb E Lv HL w S0 S1 T0 T1 V0 V1 D. destruct b as [[e1 e2] e3]. cbn [same_direction] in D.
  pose proof (rot_of oob leggauss nmax kmax [(e1, e2, e3)] [M] HG Hn Hk ltac:(constructor; [exact Hb|constructor]) E) as RO.
  inversion RO as [|? ? ? ? [Hb' HR] _]; subst.
  assert (Lw : List.length w = (nmax * (nmax + 2))%nat) by (unfold w; rewrite map_length; apply seq_length).
  destruct (gauss_positions L w) as (restw & Ew); [rewrite Lw; nia|]. destruct (gauss_positions L v) as (restv & Ev); [rewrite Lv; nia|].
  change 1%Z with (Z.of_nat 1) in S0, S1.
  set (gw := fun n m => nth (gidx n m) w 0) in *. set (hw := fun n m => nth (hidx n m) w 0) in *.
  set (gv := fun n m => nth (gidx n m) v 0) in *. set (hv := fun n m => nth (hidx n m) v 0) in *.
  destruct (sv_closed _ _ _ _ _ _ _ _ _ _ _ x gw hw restw S0 T0 V0) as (_ & _ & R1 & R2 & R3); [rewrite crow_cvec; exact Ew|].
  destruct (sv_closed _ _ _ _ _ _ _ _ _ _ _ x gv hv restv S1 T1 V1) as (_ & _ & R1' & R2' & R3'); [rewrite crow_cvec; exact Ev|].
  rewrite R1, R2, R3, R1', R2', R3'. rewrite !field_vector_frames.
  set (t := rad (bread theta x)) in *. set (p := rad (bread phi x)) in *. set (t' := rad (bread theta' x)) in *. set (p' := rad (bread phi' x)) in *.
  assert (D' : du t' p' = resolve e1 e2 e3 (du t p)) by (unfold t, p, t', p'; rewrite !du_direction; exact D).
  assert (HH : forall n, (1 <= n <= L)%nat -> forall t p, harm n (gw n) (hw n) (du t p) = harm n (gv n) (hv n) (resolve e1 e2 e3 (du t p))).
  { intros n Hn0 t0 p0. transitivity (harm n (fun m => times (entry M) v (g_position n m)) (fun m => times (entry M) v (h_position n m)) (du t0 p0)).
    - apply Rsum_map_ext. intros m Hm. apply range_incl_spec in Hm.
      assert (GI : gidx n m = g_position n m) by reflexivity. assert (HI : hidx n m = h_position n m) by reflexivity.
      unfold gw, hw. rewrite GI, HI. clear GI HI. 
      assert (W : forall i, (i < nmax * (nmax + 2))%nat -> nth i w 0 = times (entry M) v i).
      { intros i Hi. unfold w. rewrite (nth_indep _ 0 (times (entry M) v 0)) by (rewrite map_length, seq_length; lia). rewrite map_nth, seq_nth by lia. reflexivity. }
      rewrite W by (pose proof (g_range n m ltac:(lia) ltac:(lia)); nia).
      rewrite W; [rring|]. unfold h_position. nia.
    - exact (rot_harm nmax kmax e1 e2 e3 (entry M) v n Hb' HR Lv ltac:(lia) t0 p0). }
  destruct (field_rotates s a (bread radius x) L gv hv gw hw e1 e2 e3 Hb' HH t p t' p' D') as (FR & FT).
  rewrite FR, FT, D', !resolve_add, !resolve_scale. reflexivity.
Qed.

(** for one point *)
Lemma one_point oob a l r t p L s : (1 <= L)%nat -> (L * (L + 2) <= List.length l)%nat -> 0 <= t <= 180 ->
  exists F, synth_values oob a (cvec l) (scalar r) (scalar t) (scalar p) (Some 1%Z) (Some (Z.of_nat L)) (Some (Z.of_nat L)) (Some (src_name s)) false = Ok F /\ f_sh F = [].
Proof.
  intros HL Hl Ht. destruct (gauss_positions L l Hl) as (rest & El).
  destruct (sv_scalar oob a l r t p 1 L L s _ _ rest ltac:(lia) Ht El) as (F & E & S0 & _). exists F. split; assumption.
Qed.
Theorem rotated_point oob leggauss nmax kmax b v L s a r theta phi :
  gauss_legendre leggauss -> (1 <= nmax)%nat -> (1 <= kmax)%nat -> right_handed_axes b ->
  List.length v = (kmax * (kmax + 2))%nat -> (1 <= L <= Nat.min nmax kmax)%nat -> 0 <= theta <= 180 ->
  exists M theta' phi' F F', rotate_gauss oob leggauss nmax kmax [b] = Ok [M] /\
    same_direction b theta phi theta' phi' /\ 0 <= theta' <= 180 /\ -180 < phi' <= 180 /\
    let w := map (times (entry M) v) (seq 0 (nmax * (nmax + 2))) in
    synth_values oob a (cvec w) (scalar r) (scalar theta) (scalar phi) (Some 1%Z) (Some (Z.of_nat L)) (Some (Z.of_nat L)) (Some (src_name s)) false = Ok F /\
    synth_values oob a (cvec v) (scalar r) (scalar theta') (scalar phi') (Some 1%Z) (Some (Z.of_nat L)) (Some (Z.of_nat L)) (Some (src_name s)) false = Ok F' /\
    field_vector theta' phi' (f_r F' []) (f_t F' []) (f_p F' []) =
    (let '(e1, e2, e3) := b in resolve e1 e2 e3 (field_vector theta phi (f_r F []) (f_t F []) (f_p F []))).
Proof.
  intros HG Hn Hk Hb Lv HL Ht.
  destruct (rotate_gauss_rot oob leggauss nmax kmax [b] HG Hn Hk) as (Ms & E & FA). { constructor; [destruct b as [[e1 e2] e3]; exact Hb|constructor]. }
  inversion FA as [|? M ? Ms' _ FB]; subst. inversion FB; subst.
  destruct (directions_exist b theta phi Hb) as (theta' & phi' & D & T1 & P1).
  set (w := map (times (entry M) v) (seq 0 (nmax * (nmax + 2)))).
  assert (Lw : List.length w = (nmax * (nmax + 2))%nat) by (unfold w; rewrite map_length; apply seq_length).
  destruct (one_point oob a w r theta phi L s ltac:(lia) ltac:(rewrite Lw; nia) Ht) as (F & EF & SF).
  destruct (one_point oob a v r theta' phi' L s ltac:(lia) ltac:(rewrite Lv; nia) T1) as (F' & EF' & SF').
  exists M, theta', phi', F, F'. split; [exact E|]. split; [exact D|]. split; [exact T1|]. split; [exact P1|]. cbv zeta. fold w. split; [exact EF|]. split; [exact EF'|].
  refine (rotated_field oob leggauss nmax kmax b M v L s a (scalar r) (scalar theta) (scalar phi) (scalar theta') (scalar phi') F F' [] HG Hn Hk Hb E Lv HL EF EF' _ _ _ _ D).
  - intros t [<-|[]]. exact Ht.
  - intros t [<-|[]]. exact T1.
  - rewrite SF. constructor.
  - rewrite SF'. constructor.
Qed.
