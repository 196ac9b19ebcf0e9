(** The field of a model made from a spline, as a function of time. *)
From Coq Require Import Reals List Arith ZArith String Bool Lia Lra.
From Coquelicot Require Import Coquelicot.
From Verif Require Import M_Prelude M_ND Spec_Field Spec_Spline Spec_PP Spec_Smooth M_Legendre M_Synth M_SynthArr M_Spectrum M_Spline M_PP M_Model M_FromSpline
  P_Spectrum P_Spline P_PP P_PP2 P_Synth P_SynthArr P_SynthClosed P_Layout P_ND P_Design P_SynthProps P_SynthProps2 P_SynthProps3 P_Model P_SHCModel2 P_Smooth P_SplineC.
Import ListNotations.
Open Scope R_scope.

Lemma Derive_piece x K c i d m y : Derive_n (piece x K c i d) m y = poly_eval K (fun r => c r i d) m (y - nth i x 0).
Proof.
  pose proof (is_derive_n_poly K (fun r => c r i d) (nth i x 0) 1 m y) as P1. rewrite Rmult_1_l, pow1, Rmult_1_l in P1.
  rewrite (Derive_n_ext _ (fun y => poly_eval K (fun r => c r i d) 0 (1 * y - nth i x 0)) m y).
  - apply is_derive_n_unique. exact P1.
  - intros z. rewrite piece_poly. f_equal. ring.
Qed.

(** the field of the coefficients f at one place, day by day *)
Definition field_of (oob a : R) (s : src) (f : nat -> R -> R) (comp : field -> list nat -> R) (N : nat) (r t p day : R) : R :=
  match synth_values oob a (cvec (map (fun d => f d day) (seq 0 (N * (N + 2))))) (scalar r) (scalar t) (scalar p)
          (Some 1%Z) (Some (Z.of_nat N)) (Some (Z.of_nat N)) (Some (src_name s)) false with
  | Ok F => comp F []
  | Err _ => 0
  end.

Section Field.
Variables (oob a : R) (s : src) (x : list R) (K D : nat) (c : nat -> nat -> nat -> R) (f : nat -> R -> R).
Hypothesis G : good_breaks x.
Hypothesis HK : (2 <= K)%nat.
Hypothesis HS : forall d, (d < D)%nat -> smooth_at_breaks x K c d.
Hypothesis HF : forall d, (d < D)%nat -> forall p y, in_interval x p y -> piece x K c p d y = f d y.

Lemma field_pieces N r t p : (1 <= N)%nat -> (N * (N + 2) <= D)%nat -> 0 <= t <= 180 ->
  forall comp, comp = f_r \/ comp = f_t \/ comp = f_p ->
  exists c', smooth_at_breaks x K c' 0 /\
    (forall i day, piece_field oob a s x K c comp N i r t p day = piece x K c' i 0 day) /\
    forall i day, in_interval x i day -> piece x K c' i 0 day = field_of oob a s f comp N r t p day.
Proof.
  intros HN HD Ht comp HC. destruct (scalar_weights oob a s N r t p HN Ht) as (w & W). set (P := (N * (N + 2))%nat) in *.
  assert (W' : exists wc, forall l, (P <= List.length l)%nat -> exists F, synth_values oob a (cvec l) (scalar r) (scalar t) (scalar p) (Some 1%Z) (Some (Z.of_nat N)) (Some (Z.of_nat N)) (Some (src_name s)) false = Ok F /\
      comp F [] = dot wc l P).
  { destruct HC as [-> |[-> | ->]]; [exists (w_r w)|exists (w_t w)|exists (w_p w)]; intros l Hl; destruct (W l Hl) as (F & E & _ & A & B & C); exists F; split; assumption. }
  clear W HC. destruct W' as (wc & W).
  exists (fun r i _ => Rsum (map (fun k => wc k * c r i k) (seq 0 P))).
  assert (PF : forall i day, piece_field oob a s x K c comp N i r t p day = piece x K (fun r i _ => Rsum (map (fun k => wc k * c r i k) (seq 0 P))) i 0 day).
  { intros i day. unfold piece_field. fold P. destruct (W (map (fun d => piece x K c i d day) (seq 0 P))) as (F & E & Y); [rewrite map_length, seq_length; lia|].
    rewrite E, Y, (piece_poly x K _ i 0). rewrite (map_ext _ _ (fun d => piece_poly x K c i d day)). apply poly_dot. }
  split; [|split; [exact PF|]].
  - intros i m Hi Hm. rewrite !Derive_piece. rewrite !(poly_eval_Rsum K wc (fun k r => c r _ k)). apply Rsum_seq_ext. intros k Hk. f_equal.
    rewrite <- !Derive_piece. apply HS; [lia|exact Hi|exact Hm].
  - intros i day I. rewrite <- PF. unfold piece_field, field_of. fold P.
    rewrite (map_ext_in (fun d => piece x K c i d day) (fun d => f d day) (seq 0 P)); [reflexivity|]. intros d Hd. apply in_seq in Hd. apply HF; [lia|exact I].
Qed.

Local Notation M := (model_init (Some x) None (Some (mkc3 K (List.length x - 1) D c)) (Some (src_name s))).
Lemma field_smooth N r t p : (1 <= N)%nat -> (N * (N + 2) <= D)%nat -> 0 <= t <= 180 ->
  forall comp, comp = f_r \/ comp = f_t \/ comp = f_p -> forall m day, (m + 2 <= K)%nat -> first_break x < day < last_break x ->
  ex_derive_n (field_of oob a s f comp N r t p) m day /\ continuous (Derive_n (field_of oob a s f comp N r t p) m) day /\
  forall i v, in_interval x i day -> is_derive_n (fun year => piece_field oob a s x K c comp N i r t p (365.25 * year)) m (day / 365.25) v ->
    v = 365.25 ^ m * Derive_n (field_of oob a s f comp N r t p) m day.
Proof.
  intros HN HD Ht comp HC m day Hm Hd. destruct (field_pieces N r t p HN HD Ht comp HC) as (c' & S & PF & V).
  assert (HP : forall q, (q + 1 < List.length x)%nat -> isP (K - 1) (piece x K c' q 0)) by (intros q _; apply isP_piece; lia).
  assert (HJ : forall q m, (q + 2 < List.length x)%nat -> (m < K - 1)%nat -> Derive_n (piece x K c' q 0) m (nth (q + 1) x 0) = Derive_n (piece x K c' (q + 1) 0) m (nth (q + 1) x 0)) by (intros q i H1 H2; apply S; lia).
  destruct (glued x (K - 1) (fun q => piece x K c' q 0) _ G HP V HJ m ltac:(lia) day Hd) as [X E].
  split; [exact X|]. split; [exact (glued_continuous x (K - 1) (fun q => piece x K c' q 0) _ G HP V HJ m ltac:(lia) day Hd)|].
  intros i v I Dv. rewrite (E i I). rewrite <- (is_derive_n_unique _ _ _ _ Dv). apply is_derive_n_unique.
  apply (is_derive_n_ext (fun year => piece x K c' i 0 (365.25 * year))); [intros y; symmetry; apply PF|]. apply piece_derivative.
Qed.

Lemma model_field_smooth time radius theta phi nmax m e Fo idx N day : (m + 2 <= K)%nat ->
  model_values oob a M time radius theta phi nmax (Some m) None e = Ok Fo ->
  (forall t, In t (elems theta) -> 0 <= t <= 180) -> used_degree D nmax N -> valid (o_sh Fo) idx -> bread time idx = day -> first_break x < day < last_break x ->
  let B comp := field_of oob a s f comp N (bread radius idx) (bread theta idx) (bread phi idx) in
  (forall comp, comp = f_r \/ comp = f_t \/ comp = f_p -> ex_derive_n (B comp) m day /\ continuous (Derive_n (B comp) m) day) /\
  o_r Fo idx = Some (365.25 ^ m * Derive_n (B f_r) m day) /\ o_t Fo idx = Some (365.25 ^ m * Derive_n (B f_t) m day) /\ o_p Fo idx = Some (365.25 ^ m * Derive_n (B f_p) m day).
Proof.
  intros Hm EM Ht HU V Ey Hd B.
  destruct (model_values_decode oob a s x K D c G ltac:(lia) _ _ _ _ _ _ None _ _ EM) as (N' & r & F0 & U & LD & N1 & ES & S1 & S2 & EF & EQ).
  assert (N' = N) by exact (used_unique K D ltac:(lia) nmax N' N U HU). subst N'.
  assert (TT : 0 <= bread theta idx <= 180).
  { subst Fo. cbn [o_sh] in V. destruct (sv_at _ _ _ _ _ _ _ _ _ _ _ _ EF) as (d & Dd & Sd & _). apply decode_nogrid in Dd. destruct Dd as (_ & _ & _ & Dd & _).
    rewrite <- Sd in Dd. apply broadcast_fits in Dd. inversion Dd as [|? ? _ Dd1]; subst. inversion Dd1 as [|? ? Dt Dd2]; subst.
    apply Ht. exact (bread_in theta _ idx Dt V). }
  split. { intros comp HC. destruct (field_smooth N (bread radius idx) (bread theta idx) (bread phi idx) N1 LD TT comp HC m day Hm Hd) as (X & Y & _). exact (conj X Y). }
  destruct (in_interval_ex x day G ltac:(lra)) as [i I]. rewrite <- Ey in I.
  destruct (model_field oob a s x K D c G ltac:(lia) time radius theta phi nmax (Some m) e Fo idx i N EM Ht HU V I) as (vr & vt & vp & R1 & D1 & R2 & D2 & R3 & D3); [right; left; rewrite Ey; lra|].
  rewrite Ey in *. cbn [nu_of] in *. rewrite R1, R2, R3. 
  split; [|split]; f_equal.
  - apply (proj2 (proj2 (field_smooth N _ _ _ N1 LD TT f_r (or_introl eq_refl) m day Hm Hd)) i); assumption.
  - apply (proj2 (proj2 (field_smooth N _ _ _ N1 LD TT f_t (or_intror (or_introl eq_refl)) m day Hm Hd)) i); assumption.
  - apply (proj2 (proj2 (field_smooth N _ _ _ N1 LD TT f_p (or_intror (or_intror eq_refl)) m day Hm Hd)) i); assumption.
Qed.
End Field.
