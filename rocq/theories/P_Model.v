(** Proofs about BaseModel. *)
From Coq Require Import Reals List Arith ZArith String Bool Lia Lra.
From Coquelicot Require Import Coquelicot.
From Verif Require Import M_Prelude M_ND Spec_Field Spec_Legendre Spec_PP M_Legendre M_Synth M_SynthArr M_Spectrum M_PP M_Model
  P_Spectrum P_Spline P_PP P_PP2 P_ND P_Synth P_SynthArr P_SynthClosed P_Layout P_Design P_SynthProps P_SynthProps2 P_SynthProps3.
Import ListNotations.
Open Scope R_scope.

Lemma poly_eval_Rsum K (w : nat -> R) (row : nat -> nat -> R) M nu s :
  poly_eval K (fun r => Rsum (map (fun k => w k * row k r) (seq 0 M))) nu s = Rsum (map (fun k => w k * poly_eval K (row k) nu s) (seq 0 M)).
Proof.
  unfold poly_eval. rewrite fold_plus_Rsum.
  rewrite (Rsum_map_ext _ (fun j => Rsum (map (fun k => w k * row k (K - 1 - j)%nat * INR (falling j nu) * s ^ (j - nu)) (seq 0 M)))).
  2:{ intros j _. rewrite Rmult_assoc, Rmult_comm, <- Rsum_map_scal. apply Rsum_map_ext. intros k _. ring. }
  rewrite Rsum_swap. apply Rsum_map_ext. intros k _. rewrite fold_plus_Rsum, <- Rsum_map_scal. apply Rsum_map_ext. intros j _. ring.
Qed.

(** The field at one point as a linear function of the coefficients. *)
Lemma scalar_weights oob a s N r t p : (1 <= N)%nat -> 0 <= t <= 180 ->
  exists w, forall l, (N * (N + 2) <= List.length l)%nat ->
  exists F, synth_values oob a (cvec l) (scalar r) (scalar t) (scalar p) (Some 1%Z) (Some (Z.of_nat N)) (Some (Z.of_nat N)) (Some (src_name s)) false = Ok F /\
    f_sh F = [] /\ f_r F [] = dot (w_r w) l (N * (N + 2)) /\ f_t F [] = dot (w_t w) l (N * (N + 2)) /\ f_p F [] = dot (w_p w) l (N * (N + 2)).
Proof.
  intros HN Ht. destruct (check_poles_single t Ht) as (b & Eb & _).
  destruct (point_weights oob s a 1 N N b r t p ltac:(lia)) as (w & W).
  assert (C : count N 1 (N + 1) = (N * (N + 2))%nat) by (rewrite count_full; nia).
  rewrite C in W. exists w. intros l L.
  destruct (sv_success oob a (cvec l) (scalar r) (scalar t) (scalar p) 1 N N s []) as (F & E & S).
  - lia.
  - discriminate.
  - intros u [ <- |[]]. exact Ht.
  - reflexivity.
  - rewrite C. cbn [cvec cdim]. exact L.
  - exists F. change (Z.of_nat 1) with 1%Z in E. split; [exact E|]. split; [exact S|].
    destruct (sv_at _ _ _ _ _ _ _ _ _ _ _ _ E) as (d & D & _ & P). specialize (P []).
    destruct (decode_explicit (cvec l) (scalar r) (scalar t) (scalar p) 1 N N _ d D) as (D1 & D2 & D3 & D4 & D5 & D6 & D7 & D8 & D9).
    unfold run_point in P. change (elems (scalar t)) with [t] in D3. rewrite Eb in D3. injection D3 as D3.
    rewrite parse_src_name in D5. injection D5 as D5.
    rewrite D1, D2, <- D5, D7, D8, D9, crow_cvec, <- D3 in P. rewrite !bread_scalar in P. rewrite (W l L) in P. injection P as <- <- <-. auto.
Qed.

(** shape of the coefficients *)
Lemma coeffs_shape b time dim deriv e r D : b_dim b = Some D -> synth_coeffs b time dim deriv e = Ok r ->
  elems time <> [] /\ s_sh r = sh time /\ s_dim r = match dim with None => D | Some n => Nat.min n D end.
Proof.
  intros HD ES. unfold synth_coeffs in ES. destruct (b_coeffs b) as [c0|]; [|discriminate]. destruct (b_breaks b) as [l|]; [|discriminate].
  rewrite HD in ES. destruct (b_order b); [|discriminate]. destruct (_ || _)%bool; [discriminate|].
  destruct l; [discriminate|]. unfold amin, amax in ES. destruct (elems time) eqn:EE; [discriminate|]. cbn [bind] in ES.
  match type of ES with bind ?u _ = _ => destruct u as [PP|]; [|discriminate] end. cbn [bind] in ES. injection ES as <-. cbn [s_sh s_dim].
  split; [discriminate|]. split; [reflexivity|]. destruct dim as [n|]; [|reflexivity]. destruct (Nat.ltb_spec D n); lia.
Qed.

Lemma degree_of_size_spec n : exists N0, (N0 * (N0 + 2) <= n)%nat /\ (n < (N0 + 1) * (N0 + 3))%nat /\ degree_of_size n = Z.of_nat N0.
Proof.
  unfold degree_of_size. pose proof (Z.sqrt_spec (Z.of_nat n + 1) ltac:(lia)) as S.
  assert (0 < Z.sqrt (Z.of_nat n + 1))%Z by (apply Z.sqrt_pos; lia).
  set (q := Z.sqrt (Z.of_nat n + 1)) in *. exists (Z.to_nat (q - 1)). assert (E : q = (Z.of_nat (Z.to_nat (q - 1)) + 1)%Z) by lia.
  set (N0 := Z.to_nat (q - 1)) in *. clearbody N0 q. subst q. rewrite !Z.add_1_r in *. destruct S as [S1 S2].
  split; [nia|]. split; [|lia]. apply Nat2Z.inj_lt. rewrite Nat2Z.inj_mul, !Nat2Z.inj_add. cbn [Z.of_nat Pos.of_succ_nat Pos.succ]. nia.
Qed.

Section Field.
Variables (oob a : R) (s : src) (x : list R) (K D : nat) (c : nat -> nat -> nat -> R).
Local Notation M := (model_init (Some x) None (Some (mkc3 K (List.length x - 1) D c)) (Some (src_name s))).
Hypothesis G : good_breaks x.
Hypothesis HK : (1 <= K)%nat.

Lemma base_M : m_base M = P_PP.model x K D c. Proof. reflexivity. Qed.
Lemma degree_M nmax : exists N0, (N0 * (N0 + 2) <= D)%nat /\ (D < (N0 + 1) * (N0 + 3))%nat /\ m_nmax M = Some (Z.of_nat N0) /\
  (match nmax with None => Z.to_nat (Z.of_nat N0) | Some n => if (Z.of_nat N0 <? Z.of_nat n)%Z then Z.to_nat (Z.of_nat N0) else n end
   = match nmax with None => N0 | Some n => Nat.min n N0 end).
Proof.
  destruct (degree_of_size_spec D) as (N0 & A & B & C). exists N0. split; [exact A|]. split; [exact B|]. split.
  - unfold model_init, base_init. cbn. destruct x as [|b0 [|b1 l]]; cbn; rewrite C; reflexivity.
  - destruct nmax as [n|]; [|lia]. destruct (Z.ltb_spec (Z.of_nat N0) (Z.of_nat n)); lia.
Qed.

Lemma used_unique nmax N N' : used_degree D nmax N -> used_degree D nmax N' -> N = N'.
Proof.
  intros (A & A1 & A2 & A3) (B & B1 & B2 & B3). assert (A = B) by nia. destruct nmax; congruence.
Qed.

(** what model_values does *)
Lemma model_values_decode time radius theta phi nmax deriv grid e F :
  model_values oob a M time radius theta phi nmax deriv grid e = Ok F ->
  exists N r F0, used_degree D nmax N /\ (N * (N + 2) <= D)%nat /\ (1 <= N)%nat /\
    synth_coeffs (P_PP.model x K D c) time (Some (N * (N + 2))%nat) deriv e = Ok r /\ s_sh r = sh time /\ s_dim r = (N * (N + 2))%nat /\
    synth_values oob a (mkcarr (sh time) (N * (N + 2)) (fun x k => match s_at r x k with Some v => v | None => 0 end)) radius theta phi
      (Some 1%Z) (Some (Z.of_nat N)) (Some (Z.of_nat N)) (Some (src_name s)) (match grid with None => false | Some g => g end) = Ok F0 /\
    F = mkofield (f_sh F0) 
      (fun i => match s_at r (bidx (sh time) i) 0%nat with None => None | Some _ => Some (f_r F0 i) end)
      (fun i => match s_at r (bidx (sh time) i) 0%nat with None => None | Some _ => Some (f_t F0 i) end)
      (fun i => match s_at r (bidx (sh time) i) 0%nat with None => None | Some _ => Some (f_p F0 i) end).
Proof.
  unfold model_values. destruct (degree_M nmax) as (N0 & A & B & C & E). rewrite C, E.
  set (N := match nmax with None => N0 | Some n => Nat.min n N0 end) in *.
  unfold model_coeffs. rewrite base_M. cbn [option_map].
  destruct (synth_coeffs _ time _ deriv e) as [r|] eqn:ES; [|discriminate]. cbn [bind]. unfold nan_synth. change (m_source M) with (src_name s).
  intros H. destruct (coeffs_shape (P_PP.model x K D c) _ _ _ _ _ D ltac:(destruct x as [|? [|? ?]]; reflexivity) ES) as (NE & S1 & S2).
  assert (ND : N = 0%nat \/ (1 <= N)%nat) by lia. destruct ND as [N00|N1].
  { exfalso. rewrite N00 in H. unfold synth_values in H at 1. destruct (check_poles _); [|discriminate]. cbn in H. discriminate. }
  assert (LD : (N * (N + 2) <= D)%nat) by (assert (N <= N0)%nat by (unfold N; destruct nmax; lia); nia).
  rewrite S1, S2 in H. rewrite Nat.min_l in H by exact LD.
  match type of H with bind ?u _ = _ => destruct u as [F0|] eqn:EF; [|discriminate] end. cbn [bind] in H. injection H as <-.
  exists N, r, F0. split; [exists N0; auto|]. split; [exact LD|]. split; [exact N1|]. split; [exact ES|]. split; [exact S1|]. split; [lia|]. split; [|reflexivity].
  unfold synth_values in *. exact EF.
Qed.
(** the field of the polynomial piece i at time [day] *)
Definition piece_field (comp : field -> list nat -> R) (N i : nat) (r t p day : R) : R :=
  match synth_values oob a (cvec (map (fun d => piece x K c i d day) (seq 0 (N * (N + 2))))) (scalar r) (scalar t) (scalar p)
          (Some 1%Z) (Some (Z.of_nat N)) (Some (Z.of_nat N)) (Some (src_name s)) false with
  | Ok F => comp F []
  | Err _ => 0
  end.

Lemma poly_dot (w : nat -> R) i M0 nu day :
  dot w (map (fun d => poly_eval K (fun r => c r i d) nu (day - nth i x 0)) (seq 0 M0)) M0 =
  poly_eval K (fun r => Rsum (map (fun k => w k * c r i k) (seq 0 M0))) nu (day - nth i x 0).
Proof.
  rewrite (poly_eval_Rsum K w (fun k r => c r i k)). unfold dot. apply Rsum_seq_ext. intros k Hk.
  rewrite (nth_indep _ 0 ((fun d => poly_eval K (fun r => c r i d) nu (day - nth i x 0)) 0%nat)) by (rewrite map_length, seq_length; exact Hk).
  rewrite (map_nth (fun d => poly_eval K (fun r => c r i d) nu (day - nth i x 0))), seq_nth by exact Hk. reflexivity.
Qed.
Lemma dot_scal w (l : list R) q M0 : dot w (map (fun v => v * q) l) M0 = q * dot w l M0.
Proof.
  unfold dot. rewrite <- Rsum_map_scal. apply Rsum_seq_ext. intros k Hk.
  destruct (Nat.lt_ge_cases k (List.length l)) as [L|L].
  - rewrite (nth_indep _ 0 ((fun v => v * q) 0)) by (rewrite map_length; exact L). rewrite (map_nth (fun v => v * q)). ring.
  - rewrite !nth_overflow by (rewrite ?map_length; exact L). ring.
Qed.

Lemma model_field time radius theta phi nmax deriv e F idx i N :
  model_values oob a M time radius theta phi nmax deriv None e = Ok F ->
  (forall t, In t (elems theta) -> 0 <= t <= 180) -> used_degree D nmax N -> valid (o_sh F) idx ->
  in_interval x i (bread time idx) ->
  nu_of deriv = 0%nat \/ bread time idx <> last_break x \/ (forall t, In t (elems time) -> ~ outside x t) ->
  let B comp day := piece_field comp N i (bread radius idx) (bread theta idx) (bread phi idx) day in
  exists vr vt vp,
    o_r F idx = Some vr /\ is_derive_n (fun year => B f_r (365.25 * year)) (nu_of deriv) (bread time idx / 365.25) vr /\
    o_t F idx = Some vt /\ is_derive_n (fun year => B f_t (365.25 * year)) (nu_of deriv) (bread time idx / 365.25) vt /\
    o_p F idx = Some vp /\ is_derive_n (fun year => B f_p (365.25 * year)) (nu_of deriv) (bread time idx / 365.25) vp.
Proof.
  intros EM Ht HU V HI HC B.
  destruct (model_values_decode _ _ _ _ _ _ _ _ _ EM) as (N' & r & F0 & U & LD & N1 & ES & S1 & S2 & EF & EQ).
  rewrite (used_unique _ _ _ U HU) in *. clear U N'. subst F. cbn [o_sh o_r o_t o_p] in *.
  destruct (C30_pointwise _ _ _ _ _ _ _ _ _ _ _ EF Ht idx V) as (F1 & E1 & _ & R1 & R2 & R3).
  assert (VT : valid (sh time) (bidx (sh time) idx) /\ 0 <= bread theta idx <= 180).
  { destruct (sv_at _ _ _ _ _ _ _ _ _ _ _ _ EF) as (d & Dd & Sd & _). apply decode_nogrid in Dd. destruct Dd as (_ & _ & _ & Dd & _).
    rewrite <- Sd in Dd. apply broadcast_fits in Dd. inversion Dd as [|? ? _ Dd1]; subst. inversion Dd1 as [|? ? Dt Dd2]; subst.
    inversion Dd2 as [|? ? _ Dd3]; subst. inversion Dd3 as [|? ? Dd4 _]; subst. split; [exact (Dd4 idx V)|].
    apply Ht. exact (bread_in theta _ idx Dt V). }
  destruct VT as [VT TT].
  assert (SV : forall d, (d < D)%nat -> s_at r (bidx (sh time) idx) d =
     Some (poly_eval K (fun r => c r i d) (nu_of deriv) (bread time idx - nth i x 0) * 365.25 ^ nu_of deriv)).
  { intros d Hd. apply (inside_value x K D c time _ deriv e r _ i d G HK Hd VT ES HI).
    destruct HC as [HC|[HC|HC]]; [left; exact HC|right; left; exact HC|right; right]. intros (t & T1 & T2). exact (HC t T1 T2). }
  destruct (scalar_weights oob a s N (bread radius idx) (bread theta idx) (bread phi idx) N1 TT) as (w & W).
  set (P := (N * (N + 2))%nat) in *. assert (P0 : (0 < P)%nat) by (unfold P; nia).
  rewrite (SV 0%nat) by lia.
  assert (CR : crow (mkcarr (sh time) P (fun x k => match s_at r x k with Some v => v | None => 0 end)) idx =
     map (fun v => v * 365.25 ^ nu_of deriv) (map (fun d => poly_eval K (fun r => c r i d) (nu_of deriv) (bread time idx - nth i x 0)) (seq 0 P))).
  { unfold crow. cbn [csh cdim cat]. rewrite map_map. apply map_ext_in. intros d Hd. apply in_seq in Hd. rewrite SV by lia. reflexivity. }
  rewrite CR in E1.
  destruct (W (map (fun v => v * 365.25 ^ nu_of deriv) (map (fun d => poly_eval K (fun r => c r i d) (nu_of deriv) (bread time idx - nth i x 0)) (seq 0 P))))
    as (F2 & E2 & _ & Q1 & Q2 & Q3); [rewrite !map_length, seq_length; lia|].
  rewrite E1 in E2. injection E2 as <-. rewrite dot_scal, poly_dot in Q1, Q2, Q3. rewrite <- R1, <- R2, <- R3, Q1, Q2, Q3.
  assert (PF : forall day, B f_r day = poly_eval K (fun r => Rsum (map (fun k => w_r w k * c r i k) (seq 0 P))) 0 (day - nth i x 0) /\
                           B f_t day = poly_eval K (fun r => Rsum (map (fun k => w_t w k * c r i k) (seq 0 P))) 0 (day - nth i x 0) /\
                           B f_p day = poly_eval K (fun r => Rsum (map (fun k => w_p w k * c r i k) (seq 0 P))) 0 (day - nth i x 0)).
  { intros day. unfold B, piece_field. fold P. destruct (W (map (fun d => piece x K c i d day) (seq 0 P))) as (F3 & E3 & _ & Y1 & Y2 & Y3); [rewrite map_length, seq_length; lia|].
    rewrite E3, Y1, Y2, Y3. rewrite <- !poly_dot. rewrite (map_ext _ _ (fun d => piece_poly x K c i d day)). auto. }
  exists (365.25 ^ nu_of deriv * poly_eval K (fun r => Rsum (map (fun k => w_r w k * c r i k) (seq 0 P))) (nu_of deriv) (bread time idx - nth i x 0)),
         (365.25 ^ nu_of deriv * poly_eval K (fun r => Rsum (map (fun k => w_t w k * c r i k) (seq 0 P))) (nu_of deriv) (bread time idx - nth i x 0)),
         (365.25 ^ nu_of deriv * poly_eval K (fun r => Rsum (map (fun k => w_p w k * c r i k) (seq 0 P))) (nu_of deriv) (bread time idx - nth i x 0)).
  assert (FIN : forall f row, (forall day, f day = poly_eval K row 0 (day - nth i x 0)) ->
     is_derive_n (fun year => f (365.25 * year)) (nu_of deriv) (bread time idx / 365.25) (365.25 ^ nu_of deriv * poly_eval K row (nu_of deriv) (bread time idx - nth i x 0))).
  { intros f row Hf. apply (is_derive_n_ext (fun y => poly_eval K row 0 (365.25 * y - nth i x 0))); [intros y; symmetry; apply Hf|].
    pose proof (is_derive_n_poly K row (nth i x 0) 365.25 (nu_of deriv) (bread time idx / 365.25)) as Q. rewrite year_day in Q. exact Q. }
  split; [reflexivity|]. split; [apply FIN; intros day; apply PF|]. split; [reflexivity|]. split; [apply FIN; intros day; apply PF|].
  split; [reflexivity|]. apply FIN; intros day; apply PF.
Qed.

Lemma model_nan time radius theta phi nmax deriv e F idx :
  e = XStr "off" \/ e = XBool false \/ (exists z, (z <= 0)%Z /\ e = XInt z) ->
  model_values oob a M time radius theta phi nmax deriv None e = Ok F -> valid (o_sh F) idx ->
  (o_r F idx = None <-> outside x (bread time idx)) /\ (o_t F idx = None <-> outside x (bread time idx)) /\ (o_p F idx = None <-> outside x (bread time idx)).
Proof.
  intros He EM V.
  destruct (model_values_decode _ _ _ _ _ _ _ _ _ EM) as (N & r & F0 & U & LD & N1 & ES & S1 & S2 & EF & EQ). subst F. cbn [o_sh o_r o_t o_p] in *.
  assert (VT : valid (sh time) (bidx (sh time) idx)).
  { destruct (sv_at _ _ _ _ _ _ _ _ _ _ _ _ EF) as (d & Dd & Sd & _). apply decode_nogrid in Dd. destruct Dd as (_ & _ & _ & Dd & _).
    rewrite <- Sd in Dd. apply broadcast_fits in Dd. inversion Dd as [|? ? _ Dd1]; subst. inversion Dd1 as [|? ? Dt Dd2]; subst.
    inversion Dd2 as [|? ? _ Dd3]; subst. inversion Dd3 as [|? ? Dd4 _]; subst. exact (Dd4 idx V). }
  pose proof (off_value x K D c time _ deriv e r _ 0%nat G HK ltac:(nia) VT He ES) as O.
  change (at_ time (bidx (sh time) idx)) with (bread time idx) in O. rewrite <- O.
  destruct (s_at r (bidx (sh time) idx) 0) as [v|]; repeat split; intros; try reflexivity; discriminate.
Qed.

Lemma model_values_ok time radius theta phi nmax deriv e gsh :
  (3 <= D)%nat -> nmax <> Some 0%nat -> elems time <> [] -> (forall st, e = XStr st -> In st documented) ->
  elems theta <> [] -> (forall t, In t (elems theta) -> 0 <= t <= 180) ->
  broadcast [sh radius; sh theta; sh phi; sh time] = Ok gsh ->
  exists F, model_values oob a M time radius theta phi nmax deriv None e = Ok F /\ o_sh F = gsh.
Proof.
  intros HD Hn Hte Hst Hne Hth HB. unfold model_values. destruct (degree_M nmax) as (N0 & A & B & C & E). rewrite C, E.
  set (N := match nmax with None => N0 | Some n => Nat.min n N0 end) in *.
  assert (N1 : (1 <= N <= N0)%nat). { assert (1 <= N0)%nat by nia. unfold N. destruct nmax as [[|n]|]; [congruence|lia|lia]. }
  unfold model_coeffs. rewrite base_M. cbn [option_map].
  destruct (C39_ok x K D c time (Some (N * (N + 2))%nat) deriv e G HK ltac:(lia) Hte Hst) as (r & ER & S1 & S2). rewrite ER. cbn [bind].
  unfold nan_synth. change (m_source M) with (src_name s). rewrite S1, S2, Nat.min_l by nia.
  destruct (sv_success oob a (mkcarr (sh time) (N * (N + 2)) (fun x k => match s_at r x k with Some v => v | None => 0 end)) radius theta phi 1 N N s gsh
    ltac:(lia) Hne Hth HB) as (F & EF & SF); [rewrite count_full by lia; cbn [cdim]; nia|].
  change (synth_values oob a ?cc radius theta phi None (Some (Z.of_nat N)) None (Some (src_name s)) false) with
    (synth_values oob a cc radius theta phi (Some (Z.of_nat 1)) (Some (Z.of_nat N)) (Some (Z.of_nat N)) (Some (src_name s)) false).
  rewrite EF. cbn [bind]. eexists. split; [reflexivity|exact SF].
Qed.
End Field.
