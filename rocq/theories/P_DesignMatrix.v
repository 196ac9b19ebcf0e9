(** [design_matrix] times the parameters is the field of the splines (C33). *)
From Coq Require Import Reals List Arith ZArith String Bool Lia Lra.
From Verif Require Import M_Prelude M_ND P_ND Spec_Field M_Synth M_SynthArr M_Spectrum M_Spline P_Spectrum P_Spectrum2 P_Spline
  P_Synth P_Layout P_Design P_SynthProps P_SynthProps2 P_SynthProps3 P_SynthWit.
Import ListNotations.
Open Scope R_scope.

(** ** Splines are linear in their coefficients *)
Lemma bspline_linear t p order x : (1 <= order)%nat -> (2 * order <= List.length t)%nat ->
  knot t (order - 1) <= x <= knot t (List.length t - order) ->
  let N := (List.length t - order)%nat in
  exists B q, (forall n, (n < N)%nat -> bspline_eval t (unit_vec N n) (order - 1) x 0 = Some (B n)) /\
    bspline_eval t (map p (seq 0 N)) (order - 1) x 0 = Some q /\
    Rsum (map (fun n => B n * p n) (seq 0 N)) = q.
Proof.
  intros Ho Hl Hx N. set (k := (order - 1)%nat) in *. assert (EN : (List.length t - k - 1)%nat = N) by lia. fold N in Hx.
  destruct (find_interval_spec t N x (List.length t) k ltac:(lia) ltac:(lia) ltac:(lia) (proj1 Hx)) as (Q1 & Q2 & Q3).
  set (ell := find_interval _ _ _ _ _) in *. set (h := deboor t x k ell 0).
  assert (EV : forall c, bspline_eval t c k x 0 = Some (Rsum (map (fun a => nth (ell + a - k) c 0 * h a) (seq 0 (k + 1))))).
  { intros c. unfold bspline_eval. rewrite EN. destruct (Rlt_dec x (knot t k)); [lra|]. destruct (Rlt_dec (knot t N) x); [lra|].
    fold ell. fold h. rewrite (fold_out (fun a => nth (ell + a - k) c 0 * h a)). f_equal. ring. }
  exists (fun n => Rsum (map (fun a => (if (ell + a - k =? n)%nat then 1 else 0) * h a) (seq 0 (k + 1)))).
  exists (Rsum (map (fun a => p (ell + a - k)%nat * h a) (seq 0 (k + 1)))). split; [|split].
  - intros n Hn. rewrite EV. f_equal. apply Rsum_seq_ext. intros a Ha. rewrite nth_unit by lia. reflexivity.
  - rewrite EV. f_equal. apply Rsum_seq_ext. intros a Ha.
    rewrite (nth_indep _ 0 (p 0%nat)) by (rewrite map_length, seq_length; lia). rewrite map_nth, seq_nth by lia. reflexivity.
  - transitivity (Rsum (map (fun n => Rsum (map (fun a => (if (ell + a - k =? n)%nat then 1 else 0) * h a * p n) (seq 0 (k + 1)))) (seq 0 N))).
    + apply Rsum_seq_ext. intros n _. rewrite Rmult_comm, <- Rsum_scal, map_map. apply Rsum_ext. intros a _. ring.
    + rewrite (Rsum_swap (fun n a => (if (ell + a - k =? n)%nat then 1 else 0) * h a * p n)). apply Rsum_seq_ext. intros a Ha.
      rewrite (Rsum_seq_ext _ (fun n => (if (n =? ell + a - k)%nat then 1 else 0) * (h a * p n))).
      * rewrite (Rsum_single (fun n => h a * p n)) by lia. ring.
      * intros n _. rewrite Nat.eqb_sym. ring.
Qed.

(** ** The column loop *)
Section Loop.
Variables (A : gmat) (coll : nat -> nat -> option R) (tot nseg nct : nat) (junk : nat -> nat -> option R).
Hypothesis Htot : (nct * nseg <= tot)%nat.

Definition filled (g : list nat -> nat -> R) (c : nat) (M : nat -> nat -> option R) : Prop :=
  forall i j s, (j < c)%nat -> (s < nseg)%nat -> M i (j * nseg + s)%nat = omulr (g [i] j) (coll i s).

Lemma set_filled g c M M' : (c < nct)%nat -> filled g c M ->
  set_cols tot (c * nseg) nseg (fun i k => omulr (g [i] c) (coll i k)) M = Ok M' -> filled g (S c) M'.
Proof.
  intros Hc F E. unfold set_cols in E. destruct (_ <=? _)%nat; [|discriminate]. injection E as <-.
  intros i j s Hj Hs. destruct (Nat.eq_dec j c) as [ -> |N].
  - destruct (Nat.leb_spec (c * nseg) (c * nseg + s)); [|lia]. destruct (Nat.ltb_spec (c * nseg + s) (c * nseg + nseg)); [|lia].
    cbn [andb]. f_equal. f_equal. lia.
  - destruct (Nat.leb_spec (c * nseg) (j * nseg + s)); [nia|]. cbn [andb]. apply F; lia.
Qed.

Lemma set_cols_ok c0 w V M : (c0 + w <= tot)%nat -> exists M', set_cols tot c0 w V M = Ok M'.
Proof. intros H. unfold set_cols. destruct (Nat.leb_spec (c0 + w) tot); [eexists; reflexivity|lia]. Qed.

Lemma loop_filled : exists Mr Mt Mp,
  for_rangeM 0 nct (dm_step tot nseg A coll) (0%nat, junk, junk, junk) = Ok ((nct * nseg)%nat, Mr, Mt, Mp) /\
  filled (g_r A) nct Mr /\ filled (g_t A) nct Mt /\ filled (g_p A) nct Mp.
Proof.
  assert (G : forall c, (c <= nct)%nat -> exists Mr Mt Mp,
    for_rangeM 0 c (dm_step tot nseg A coll) (0%nat, junk, junk, junk) = Ok ((c * nseg)%nat, Mr, Mt, Mp) /\
    filled (g_r A) c Mr /\ filled (g_t A) c Mt /\ filled (g_p A) c Mp).
  { induction c as [|c IH]; intros Hc.
    - exists junk, junk, junk. split; [reflexivity|]. repeat split; intros i j s Hj; lia.
    - destruct IH as (Mr & Mt & Mp & E & F1 & F2 & F3); [lia|]. rewrite for_rangeM_snoc, E by lia. cbn [bind]. unfold dm_step.
      assert (B : (c * nseg + nseg <= tot)%nat) by nia.
      destruct (set_cols_ok _ _ (fun i k => omulr (g_r A [i] c) (coll i k)) Mr B) as (Mr' & E1).
      destruct (set_cols_ok _ _ (fun i k => omulr (g_t A [i] c) (coll i k)) Mt B) as (Mt' & E2).
      destruct (set_cols_ok _ _ (fun i k => omulr (g_p A [i] c) (coll i k)) Mp B) as (Mp' & E3).
      rewrite E1, E2, E3. cbn [bind]. exists Mr', Mt', Mp'. split; [f_equal; f_equal; f_equal; f_equal; lia|].
      split; [exact (set_filled (g_r A) c Mr Mr' Hc F1 E1)|].
      split; [exact (set_filled (g_t A) c Mt Mt' Hc F2 E2)|exact (set_filled (g_p A) c Mp Mp' Hc F3 E3)]. }
  apply G. lia.
Qed.
End Loop.

Lemma thetas_inside_spec l : thetas_inside l = Ok true -> forall t, In t l -> 0 < t < 180.
Proof.
  destruct l as [|x l]; [discriminate|]. unfold thetas_inside. destruct (fold_Rmin l x) as [_ A2]. destruct (fold_Rmax l x) as [_ B2].
  destruct (Rlt_dec _ _) as [L1|]; [|discriminate]. destruct (Rlt_dec _ _) as [L2|]; [|discriminate]. intros _ t Ht.
  specialize (A2 t Ht). specialize (B2 t Ht). lra.
Qed.

Lemma shape_eqb_true a b : shape_eqb a b = true -> a = b.
Proof. unfold shape_eqb. destruct (list_eq_dec _ _ _); [intros _; assumption|discriminate]. Qed.

Lemma Rsum_blocks (f : nat -> R) c w : Rsum (map f (seq 0 (c * w))) = Rsum (map (fun j => Rsum (map (fun s => f (j * w + s)%nat) (seq 0 w))) (seq 0 c)).
Proof.
  induction c as [|c IH]; [reflexivity|]. rewrite P_Spline.Rsum_snoc, <- IH. replace (S c * w)%nat with (c * w + w)%nat by lia.
  rewrite seq_app, map_app, Rsum_app. f_equal. cbn [Nat.add].
  assert (G : forall m a, map f (seq a m) = map (fun s => f (a + s)%nat) (seq 0 m)).
  { induction m as [|m IHm]; intros a; [reflexivity|]. cbn [seq map]. rewrite Nat.add_0_r. f_equal. rewrite IHm, <- (seq_shift m 0), map_map.
    apply map_ext. intros s. f_equal. lia. }
  rewrite G. reflexivity.
Qed.

(** Structure of the result. *)
Lemma design_matrix_struct junk oob a knots order n_tdep time radius theta phi n_static source D :
  design_matrix junk oob a knots order n_tdep time radius theta phi n_static source = Ok D -> (1 <= order)%nat ->
  exists N ns A,
    sh time = [N] /\ sh radius = [N] /\ sh theta = [N] /\ sh phi = [N] /\
    (forall t, In t (elems theta) -> 0 < t < 180) /\
    match n_static with None => ns = n_tdep | Some z => z = Z.of_nat ns end /\ (n_tdep <= ns)%nat /\ (1 <= ns)%nat /\
    design_gauss oob a radius theta phi (Z.of_nat ns) None None (Some (match source with None => "internal"%string | Some s => s end)) = Ok A /\
    (order <= List.length knots)%nat /\ elems time <> [] /\
    let nseg := (List.length knots - order)%nat in
    let nct := (n_tdep * (n_tdep + 2))%nat in let ncs := (ns * (ns + 2))%nat in
    m_cols D = (nct * nseg + (ncs - nct))%nat /\
    (forall i j s, (j < nct)%nat -> (s < nseg)%nat ->
      let b := bspline_eval knots (unit_vec nseg s) (order - 1) (nth i (elems time) 0) 0 in
      m_r D i (j * nseg + s)%nat = omulr (g_r A [i] j) b /\ m_t D i (j * nseg + s)%nat = omulr (g_t A [i] j) b /\
      m_p D i (j * nseg + s)%nat = omulr (g_p A [i] j) b) /\
    (forall i j, (nct <= j < ncs)%nat ->
      m_r D i (nct * nseg + (j - nct))%nat = Some (g_r A [i] j) /\ m_t D i (nct * nseg + (j - nct))%nat = Some (g_t A [i] j) /\
      m_p D i (nct * nseg + (j - nct))%nat = Some (g_p A [i] j)).
Proof.
  unfold design_matrix. 
  destruct (shape_eqb (sh time) (sh radius)) eqn:S1; [|discriminate].
  destruct (shape_eqb (sh radius) (sh theta)) eqn:S2; [|discriminate].
  destruct (shape_eqb (sh theta) (sh phi)) eqn:S3; [|discriminate]. cbn [andb negb].
  apply shape_eqb_true in S1, S2, S3.
  destruct (Nat.eqb_spec (List.length (sh time)) 1) as [L1|]; [|discriminate]. cbn [negb].
  destruct (sh time) as [|N [|]] eqn:ST; try discriminate.
  destruct (thetas_inside (elems theta)) as [b|] eqn:ET; [|discriminate]. cbn [bind]. destruct b; [|discriminate]. cbn [negb].
  assert (NE : elems time <> []).
  { assert (Hth : elems theta <> []) by (intros X; rewrite X in ET; discriminate).
    intros X. apply Hth. unfold elems in *. rewrite ST in X. rewrite <- S2, <- S1. destruct (indices [N]); [reflexivity|discriminate]. }
  set (src' := match source with None => _ | Some s => s end).
  match goal with |- bind ?e _ = _ -> _ => destruct e as [nz|] eqn:EN; [|discriminate] end. cbn [bind].
  destruct (design_gauss _ _ _ _ _ _ _ _ _) as [A|] eqn:EG; [|discriminate]. cbn [bind].
  destruct (design_gauss_spec _ _ _ _ _ _ _ _ _ _ EG) as (s' & poles & B1 & _). cbn [orZ] in B1.
  destruct (colloc_matrix _ _ _ _) as [C|] eqn:EC; [|discriminate]. cbn [bind].
  unfold colloc_matrix in EC. destruct (Nat.ltb_spec (List.length knots) order) as [|Lk]; [discriminate|].
  assert (EN' : exists ns, nz = Z.of_nat ns /\ match n_static with None => ns = n_tdep | Some z => z = Z.of_nat ns end /\ (n_tdep <= ns)%nat).
  { exists (Z.to_nat nz). split; [lia|]. destruct n_static as [z|].
    - destruct (Z.eqb_spec z 0); cbn [negb andb] in EN.
      + injection EN as <-. lia.
      + destruct (Z.ltb_spec z (Z.of_nat n_tdep)); [discriminate|]. injection EN as <-. lia.
    - injection EN as <-. lia. }
  destruct EN' as (ns & -> & En & Hns). clear EN.
  intros E Ho. destruct (Nat.leb_spec order 0); [lia|].
  destruct (_ && _)%bool eqn:Q in EC; [discriminate|]. injection EC as <-. cbn [o_cols o_at] in E.
  set (nseg := (List.length knots - order)%nat) in *. set (nct := (n_tdep * (n_tdep + 2))%nat) in *.
  set (ncs := (ns * (ns + 2))%nat) in *.
  assert (Hcs : (nct <= ncs)%nat) by (unfold nct, ncs; nia).
  replace (Z.to_nat (Z.of_nat ns * (Z.of_nat ns + 2))) with ncs in E by (unfold ncs; lia).
  assert (ET2 : ((Z.of_nat nseg - 1) * Z.of_nat nct + Z.of_nat ncs = Z.of_nat (nct * nseg + (ncs - nct)))%Z) by nia.
  rewrite ET2 in E. destruct (Z.ltb_spec (Z.of_nat (nct * nseg + (ncs - nct))) 0); [lia|]. rewrite Nat2Z.id in E.
  set (tot := (nct * nseg + (ncs - nct))%nat) in *.
  match type of E with context [dm_step tot nseg A ?c] => set (coll := c) in * end.
  destruct (loop_filled A coll tot nseg nct junk ltac:(lia)) as (Mr & Mt & Mp & EL & F1 & F2 & F3).
  rewrite EL in E. cbn [bind] in E. replace (tot - nct * nseg)%nat with (ncs - nct)%nat in E by lia.
  rewrite Nat.eqb_refl in E. cbn [negb] in E. unfold set_cols in E.
  destruct (Nat.leb_spec (nct * nseg + (ncs - nct)) tot); [|lia]. cbn [bind] in E. injection E as <-. cbn [m_cols m_r m_t m_p].
  exists N, ns, A. split; [reflexivity|]. split; [congruence|]. split; [congruence|]. split; [congruence|].
  split; [apply thetas_inside_spec, ET|]. split; [exact En|]. split; [exact Hns|]. split; [lia|].
  split; [exact EG|]. split; [exact Lk|]. split; [exact NE|]. cbv zeta. split; [reflexivity|]. split.
  - intros i j s Hj Hs. destruct (Nat.leb_spec (nct * nseg) (j * nseg + s)); [nia|]. cbn [andb].
    rewrite (F1 i j s Hj Hs), (F2 i j s Hj Hs), (F3 i j s Hj Hs). split; [reflexivity|]. split; reflexivity.
  - intros i j Hj. destruct (Nat.leb_spec (nct * nseg) (nct * nseg + (j - nct))); [|lia].
    destruct (Nat.ltb_spec (nct * nseg + (j - nct)) (nct * nseg + (ncs - nct))); [|lia]. cbn [andb].
    replace (nct + (nct * nseg + (j - nct) - nct * nseg))%nat with j by lia.
    split; [reflexivity|]. split; reflexivity.
Qed.

Lemma bread_vec1 (v : nd R) N i : sh v = [N] -> (i < N)%nat -> bread v [i] = at_ v [i].
Proof.
  intros S H. unfold bread, bidx. rewrite S. cbn. destruct (Nat.eqb_spec N 1); [|reflexivity].
  replace i with 0%nat by lia. reflexivity.
Qed.
Lemma nth_elems1 (v : nd R) N i : sh v = [N] -> (i < N)%nat -> nth i (elems v) 0 = at_ v [i].
Proof.
  intros S H. unfold elems. rewrite S. cbn [indices].
  transitivity (nth i (map (fun k => at_ v [k]) (seq 0 N)) 0).
  - f_equal. generalize (seq 0 N). intros l. induction l as [|x l IH]; [reflexivity|]. cbn [flat_map map app]. f_equal. exact IH.
  - rewrite (nth_indep _ 0 (at_ v [0%nat])) by (rewrite map_length, seq_length; exact H).
    rewrite (map_nth (fun k => at_ v [k]) (seq 0 N) 0%nat), seq_nth by exact H. reflexivity.
Qed.

(** Rows times parameters, for one component *)
Lemma row_times g (b : nat -> R) q nct ncs nseg (p : nat -> R) (M : nat -> option R) : (nct <= ncs)%nat ->
  (forall j s, (j < nct)%nat -> (s < nseg)%nat -> M (j * nseg + s)%nat = Some (g j * b s)) ->
  (forall j, (nct <= j < ncs)%nat -> M (nct * nseg + (j - nct))%nat = Some (g j)) ->
  (forall j, (j < nct)%nat -> nth j q 0 = Rsum (map (fun s => b s * p (j * nseg + s)%nat) (seq 0 nseg))) ->
  (forall j, (nct <= j < ncs)%nat -> nth j q 0 = p (nct * nseg + (j - nct))%nat) ->
  let tot := (nct * nseg + (ncs - nct))%nat in
  exists G, (forall k, (k < tot)%nat -> M k = Some (G k)) /\
    Rsum (map (fun k => G k * p k) (seq 0 tot)) = Rsum (map (fun k => g k * nth k q 0) (seq 0 ncs)).
Proof.
  intros Hc M1 M2 Q1 Q2 tot.
  exists (fun k => match M k with Some v => v | None => 0 end). split.
  - intros k Hk. destruct (Nat.lt_ge_cases k (nct * nseg)) as [L|L].
    + assert (nseg <> 0)%nat by (intros ->; lia).
      assert (E : k = (k / nseg * nseg + k mod nseg)%nat) by (rewrite Nat.mul_comm; apply Nat.div_mod; assumption).
      rewrite E, M1; [reflexivity| |apply Nat.mod_upper_bound; assumption].
      apply Nat.div_lt_upper_bound; [assumption|lia].
    + specialize (M2 (k - nct * nseg + nct)%nat ltac:(lia)).
      replace (nct * nseg + (k - nct * nseg + nct - nct))%nat with k in M2 by lia. rewrite M2. reflexivity.
  - unfold tot. rewrite seq_app, map_app, Rsum_app, Rsum_blocks.
    replace ncs with (nct + (ncs - nct))%nat at 2 by lia. rewrite seq_app, map_app, Rsum_app. f_equal.
    + apply Rsum_seq_ext. intros j Hj. rewrite Q1 by exact Hj. rewrite <- Rsum_scal, map_map. apply Rsum_seq_ext. intros s Hs.
      rewrite (M1 j s Hj Hs). ring.
    + cbn [Nat.add].
      assert (G : forall (f : nat -> R) m a, map f (seq a m) = map (fun s => f (a + s)%nat) (seq 0 m)).
      { intros f. induction m as [|m IHm]; intros a; [reflexivity|]. cbn [seq map]. rewrite Nat.add_0_r. f_equal. rewrite IHm, <- (seq_shift m 0), map_map.
        apply map_ext. intros s. f_equal. lia. }
      rewrite (G _ _ (nct * nseg)%nat), (G _ _ nct). apply Rsum_seq_ext. intros s Hs.
      specialize (M2 (nct + s)%nat ltac:(lia)). specialize (Q2 (nct + s)%nat ltac:(lia)).
      replace (nct + s - nct)%nat with s in * by lia. rewrite M2, Q2. reflexivity.
Qed.

Lemma nth_map_seq (f : nat -> R) n j : (j < n)%nat -> nth j (map f (seq 0 n)) 0 = f j.
Proof.
  intros H. rewrite (nth_indep _ 0 (f 0%nat)) by (rewrite map_length, seq_length; exact H). rewrite map_nth, seq_nth by exact H. reflexivity.
Qed.

Lemma C33 junk oob a knots order n_tdep time radius theta phi n_static s D p i N :
  design_matrix junk oob a knots order n_tdep time radius theta phi n_static (Some (src_name s)) = Ok D ->
  (1 <= order)%nat -> (2 * order <= List.length knots)%nat -> sh time = [N] -> (i < N)%nat ->
  let nseg := (List.length knots - order)%nat in
  nth (order - 1) knots 0 <= at_ time [i] <= nth nseg knots 0 ->
  exists ns q F,
    match n_static with None => ns = n_tdep | Some z => z = Z.of_nat ns end /\ (n_tdep <= ns)%nat /\
    let nct := (n_tdep * (n_tdep + 2))%nat in let ncs := (ns * (ns + 2))%nat in
    List.length q = ncs /\
    (forall j, (j < nct)%nat ->
       bspline_eval knots (map (fun k => p (j * nseg + k)%nat) (seq 0 nseg)) (order - 1) (at_ time [i]) 0 = Some (nth j q 0)) /\
    (forall j, (nct <= j < ncs)%nat -> nth j q 0 = p (nct * nseg + (j - nct))%nat) /\
    synth_values oob a (cvec q) (scalar (at_ radius [i])) (scalar (at_ theta [i])) (scalar (at_ phi [i]))
      None (Some (Z.of_nat ns)) None (Some (src_name s)) false = Ok F /\
    m_cols D = (nct * nseg + (ncs - nct))%nat /\
    exists Gr Gt Gp,
      (forall k, (k < m_cols D)%nat -> m_r D i k = Some (Gr k) /\ m_t D i k = Some (Gt k) /\ m_p D i k = Some (Gp k)) /\
      Rsum (map (fun k => Gr k * p k) (seq 0 (m_cols D))) = f_r F [] /\
      Rsum (map (fun k => Gt k * p k) (seq 0 (m_cols D))) = f_t F [] /\
      Rsum (map (fun k => Gp k * p k) (seq 0 (m_cols D))) = f_p F [].
Proof.
  intros ED Ho Hk ST Hi nseg Hx.
  destruct (design_matrix_struct _ _ _ _ _ _ _ _ _ _ _ _ _ ED Ho) as (N' & ns & A & S0 & S1 & S2 & S3 & Ht & En & Hns & Hns1 & EG & Lk & NE & EM & M1 & M2).
  rewrite ST in S0. injection S0 as <-. fold nseg in EM, M1, M2. set (nct := (n_tdep * (n_tdep + 2))%nat) in *. set (ncs := (ns * (ns + 2))%nat) in *.
  set (x := at_ time [i]) in *.
  assert (Hb : exists b, (forall n, (n < nseg)%nat -> bspline_eval knots (unit_vec nseg n) (order - 1) x 0 = Some (b n)) /\
     forall f, bspline_eval knots (map f (seq 0 nseg)) (order - 1) x 0 = Some (Rsum (map (fun n => b n * f n) (seq 0 nseg)))).
  { exists (fun n => match bspline_eval knots (unit_vec nseg n) (order - 1) x 0 with Some v => v | None => 0 end).
    split.
    - intros n Hn. destruct (bspline_linear knots (fun _ => 0) order x Ho Hk Hx) as (B & _ & B1 & _). fold nseg in B1. rewrite (B1 n Hn). reflexivity.
    - intros f. destruct (bspline_linear knots f order x Ho Hk Hx) as (B & q & B1 & B2 & B3). fold nseg in B1, B2, B3. rewrite B2, <- B3. f_equal.
      apply Rsum_seq_ext. intros n Hn. rewrite (B1 n Hn). reflexivity. }
  destruct Hb as (b & Hb1 & Hb2).
  assert (Hcs : (nct <= ncs)%nat) by (unfold nct, ncs; nia).
  set (q := map (fun j => if (j <? nct)%nat then Rsum (map (fun n => b n * p (j * nseg + n)%nat) (seq 0 nseg)) else p (nct * nseg + (j - nct))%nat) (seq 0 ncs)).
  assert (Lq : List.length q = ncs) by (unfold q; rewrite map_length, seq_length; reflexivity).
  assert (Q1 : forall j, (j < nct)%nat -> nth j q 0 = Rsum (map (fun n => b n * p (j * nseg + n)%nat) (seq 0 nseg))).
  { intros j Hj. unfold q. rewrite nth_map_seq by lia. destruct (Nat.ltb_spec j nct); [reflexivity|lia]. }
  assert (Q2 : forall j, (nct <= j < ncs)%nat -> nth j q 0 = p (nct * nseg + (j - nct))%nat).
  { intros j Hj. unfold q. rewrite nth_map_seq by lia. destruct (Nat.ltb_spec j nct); [lia|reflexivity]. }
  assert (Ht' : forall t, In t (elems theta) -> 0 <= t <= 180) by (intros t Hin; specialize (Ht t Hin); lra).
  (* the field *)
  pose proof (design_gauss_spec _ _ _ _ _ _ _ _ _ _ EG) as DG. cbn [orZ] in DG. destruct DG as (s' & poles & _ & _ & _ & _ & DB & DC & _).
  assert (DC' : g_dim A = ncs) by (rewrite DC, Nat2Z.id; change (Z.to_nat 1) with 1%nat; rewrite count_full by lia; unfold ncs; nia).
  assert (EF : exists FF, synth_values oob a (cvec q) radius theta phi None (Some (Z.of_nat ns)) (Some (orZ None (Z.of_nat ns))) (Some (src_name s)) false = Ok FF).
  { pose proof (C19_columns oob a radius theta phi ns 1 ns s A EG Ht' q) as [Y _]. destruct (Y ltac:(lia)) as (FF & EFF). exists FF. exact EFF. }
  destruct EF as (FF & EF). destruct (C24 _ _ _ _ _ _ _ _ _ _ _ _ EG EF) as [C1 C2].
  assert (SB : f_sh FF = [N]).
  { rewrite C1. rewrite S1, S2, S3 in DB. unfold broadcast in DB. cbn in DB. unfold bshape in DB. cbn in DB. rewrite !Nat.eqb_refl in DB. cbn in DB.
    rewrite !Nat.eqb_refl in DB. cbn in DB. injection DB as <-. reflexivity. }
  destruct (C30_pointwise _ _ _ _ _ _ _ _ _ _ _ EF Ht' [i]) as (F & F1 & F2 & F3 & F4 & F5).
  { rewrite SB. constructor; [exact Hi|constructor]. }
  rewrite crow_cvec, (bread_vec1 _ N i S1 Hi), (bread_vec1 _ N i S2 Hi), (bread_vec1 _ N i S3 Hi) in F1.
  exists ns, q, F. split; [exact En|]. split; [exact Hns|]. cbv zeta. split; [exact Lq|].
  split; [intros j Hj; rewrite Hb2, Q1 by exact Hj; reflexivity|]. split; [exact Q2|]. split; [exact F1|]. split; [exact EM|].
  destruct (C2 [i]) as (V1 & V2 & V3). rewrite DC' in V1, V2, V3.
  assert (EX : nth i (elems time) 0 = x) by (apply (nth_elems1 time N i ST Hi)).
  destruct (row_times (g_r A [i]) b q nct ncs nseg p (m_r D i) Hcs) as (Gr & R1 & R2); [| |exact Q1|exact Q2|].
  { intros j s0 Hj Hs. destruct (M1 i j s0 Hj Hs) as (X1 & _). cbv zeta in X1. rewrite X1, EX, Hb1 by exact Hs. reflexivity. }
  { intros j Hj. apply (M2 i j Hj). }
  destruct (row_times (g_t A [i]) b q nct ncs nseg p (m_t D i) Hcs) as (G_t & T1 & T2); [| |exact Q1|exact Q2|].
  { intros j s0 Hj Hs. destruct (M1 i j s0 Hj Hs) as (_ & X1 & _). cbv zeta in X1. rewrite X1, EX, Hb1 by exact Hs. reflexivity. }
  { intros j Hj. apply (M2 i j Hj). }
  destruct (row_times (g_p A [i]) b q nct ncs nseg p (m_p D i) Hcs) as (Gp & P1 & P2); [| |exact Q1|exact Q2|].
  { intros j s0 Hj Hs. destruct (M1 i j s0 Hj Hs) as (_ & _ & X1). cbv zeta in X1. rewrite X1, EX, Hb1 by exact Hs. reflexivity. }
  { intros j Hj. apply (M2 i j Hj). }
  rewrite EM. exists Gr, G_t, Gp. split; [intros k Hk'; split; [apply R1, Hk'|split; [apply T1, Hk'|apply P1, Hk']]|].
  rewrite R2, T2, P2, F3, F4, F5, V1, V2, V3. split; [reflexivity|]. split; reflexivity.
Qed.

(** ** Success and errors *)
Lemma C33_ok junk oob a b order knots n_tdep ns time radius theta phi N s : (1 <= n_tdep <= ns)%nat -> (1 <= order)%nat ->
  (2 <= List.length b)%nat -> augment_breaks b (Z.of_nat order) = Ok knots ->
  sh time = [S N] -> sh radius = [S N] -> sh theta = [S N] -> sh phi = [S N] ->
  (forall i, (i <= N)%nat -> 0 < at_ theta [i] < 180) ->
  exists D, design_matrix junk oob a knots order n_tdep time radius theta phi (Some (Z.of_nat ns)) (Some (src_name s)) = Ok D.
Proof.
  intros Hn Ho Hb Ea S1 S2 S3 S4 Ht.
  assert (EE : forall (v : nd R), sh v = [S N] -> elems v = map (fun k => at_ v [k]) (seq 0 (S N))).
  { intros v Sv. unfold elems. rewrite Sv. cbn [indices]. generalize (seq 0 (S N)). intros l.
    induction l as [|y l IH]; [reflexivity|]. cbn [flat_map map app]. f_equal. exact IH. }
  assert (Ht' : forall t, In t (elems theta) -> 0 < t < 180).
  { intros t Hin. rewrite (EE _ S3) in Hin. apply in_map_iff in Hin. destruct Hin as (i & <- & Hi). apply in_seq in Hi. apply Ht. lia. }
  unfold design_matrix. rewrite S1, S2, S3, S4.
  assert (SE : shape_eqb [S N] [S N] = true) by (unfold shape_eqb; destruct (list_eq_dec _ _ _); [reflexivity|contradiction]).
  rewrite SE. cbn [andb negb List.length Nat.eqb].
  assert (ET : thetas_inside (elems theta) = Ok true).
  { rewrite (EE _ S3) in *. cbn [seq map] in *. unfold thetas_inside. destruct (fold_Rmin (map (fun k => at_ theta [k]) (seq 1 N)) (at_ theta [0%nat])) as [A1 _].
    destruct (fold_Rmax (map (fun k => at_ theta [k]) (seq 1 N)) (at_ theta [0%nat])) as [B1 _].
    apply Ht' in A1, B1. destruct (Rlt_dec _ _); [|lra]. destruct (Rlt_dec _ _); [reflexivity|lra]. }
  rewrite ET. cbn [bind negb].
  destruct (Z.eqb_spec (Z.of_nat ns) 0); [lia|]. destruct (Z.ltb_spec (Z.of_nat ns) (Z.of_nat n_tdep)); [lia|]. cbn [negb andb bind].
  assert (NE : elems theta <> []) by (rewrite (EE _ S3); discriminate).
  destruct (check_poles_ok (elems theta) NE) as (pl & EP & _); [intros t Hin; specialize (Ht' t Hin); lra|].
  destruct (design_gauss_ok oob a radius theta phi (Z.of_nat ns) None None (Some (src_name s)) s pl [S N]) as (A & EA).
  { cbn [orZ]. lia. } { cbn [orZ]. lia. } { apply parse_src_name. } { exact EP. }
  { rewrite S2, S3, S4. unfold broadcast. cbn. unfold bshape. cbn. rewrite !Nat.eqb_refl. cbn. rewrite !Nat.eqb_refl. reflexivity. }
  rewrite EA. cbn [bind].
  destruct (C74_ok b order knots (elems time) None Hb Ho) as (C & EC); [rewrite (EE _ S1); discriminate|exact Ea|].
  rewrite EC. cbn [bind]. set (nct := (n_tdep * (n_tdep + 2))%nat).
  replace (Z.to_nat (Z.of_nat ns * (Z.of_nat ns + 2))) with (ns * (ns + 2))%nat by lia. set (ncs := (ns * (ns + 2))%nat).
  assert (Hcs : (nct <= ncs)%nat) by (unfold nct, ncs; nia). set (nseg := o_cols C).
  assert (ET2 : ((Z.of_nat nseg - 1) * Z.of_nat nct + Z.of_nat ncs = Z.of_nat (nct * nseg + (ncs - nct)))%Z) by nia.
  rewrite ET2. destruct (Z.ltb_spec (Z.of_nat (nct * nseg + (ncs - nct))) 0); [lia|]. rewrite Nat2Z.id.
  destruct (loop_filled A (o_at C) (nct * nseg + (ncs - nct)) nseg nct junk ltac:(lia)) as (Mr & Mt & Mp & EL & _).
  rewrite EL. cbn [bind]. replace (nct * nseg + (ncs - nct) - nct * nseg)%nat with (ncs - nct)%nat by lia.
  rewrite Nat.eqb_refl. cbn [negb]. unfold set_cols. rewrite Nat.leb_refl. cbn [bind]. eexists; reflexivity.
Qed.

Lemma C33_bad_static junk oob a knots order n_tdep time radius theta phi z source : (z < Z.of_nat n_tdep)%Z ->
  is_err (design_matrix junk oob a knots order n_tdep time radius theta phi (Some z) source).
Proof.
  intros H. unfold design_matrix. destruct (negb _); [eexists; reflexivity|]. destruct (negb _); [eexists; reflexivity|].
  destruct (thetas_inside _) as [[|]|]; cbn [bind negb]; try (eexists; reflexivity).
  destruct (Z.eqb_spec z 0) as [ -> |N]; cbn [negb andb bind].
  - destruct (design_gauss oob a radius theta phi 0 None None _) as [A|] eqn:E; [|eexists; reflexivity].
    exfalso. apply design_gauss_spec in E. destruct E as (s' & pl & B & _). cbn [orZ] in B. lia.
  - destruct (Z.ltb_spec z (Z.of_nat n_tdep)); [|lia]. eexists; reflexivity.
Qed.
