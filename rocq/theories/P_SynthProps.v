(** Proofs behind Props_Synth. *)
From Coq Require Import Reals List Arith ZArith String Bool Lia Lra.
From Coquelicot Require Import Coquelicot.
From Verif Require Import M_Prelude M_ND P_ND Spec_Legendre Spec_Field M_Legendre P_LegendreTab M_Synth M_SynthArr
  P_Synth P_SynthArr P_SynthClosed P_Layout P_Design.
Import ListNotations.
Open Scope R_scope.

(** ** Colatitude check *)
Lemma fold_Rmin l : forall x, In (fold_left Rmin l x) (x :: l) /\ (forall y, In y (x :: l) -> fold_left Rmin l x <= y).
Proof.
  induction l as [|z l IH]; intros x; cbn [fold_left].
  - split; [left; reflexivity|]. intros y [->|[]]. lra.
  - destruct (IH (Rmin x z)) as [A B]. split.
    + destruct A as [A|A]; [|right; right; exact A]. rewrite <- A. unfold Rmin. destruct (Rle_dec x z); [left|right; left]; reflexivity.
    + intros y Hy. pose proof (B (Rmin x z) (or_introl eq_refl)). pose proof (Rmin_l x z). pose proof (Rmin_r x z).
      destruct Hy as [<-|[<-|Hy]]; [lra|lra|]. apply B. right; exact Hy.
Qed.
Lemma fold_Rmax l : forall x, In (fold_left Rmax l x) (x :: l) /\ (forall y, In y (x :: l) -> y <= fold_left Rmax l x).
Proof.
  induction l as [|z l IH]; intros x; cbn [fold_left].
  - split; [left; reflexivity|]. intros y [->|[]]. lra.
  - destruct (IH (Rmax x z)) as [A B]. split.
    + destruct A as [A|A]; [|right; right; exact A]. rewrite <- A. unfold Rmax. destruct (Rle_dec x z); [right; left|left]; reflexivity.
    + intros y Hy. pose proof (B (Rmax x z) (or_introl eq_refl)). pose proof (Rmax_l x z). pose proof (Rmax_r x z).
      destruct Hy as [<-|[<-|Hy]]; [lra|lra|]. apply B. right; exact Hy.
Qed.

Lemma check_poles_ok l : l <> [] -> (forall t, In t l -> 0 <= t <= 180) ->
  exists b, check_poles l = Ok b /\ (b = false -> forall t, In t l -> 0 < t < 180) /\ (b = true -> exists t, In t l /\ (t = 0 \/ t = 180)).
Proof.
  intros Hne H. destruct l as [|x l]; [congruence|]. unfold check_poles, amin, amax. cbn [bind].
  destruct (fold_Rmin l x) as [A1 A2]. destruct (fold_Rmax l x) as [B1 B2].
  set (mn := fold_left Rmin l x) in *. set (mx := fold_left Rmax l x) in *.
  pose proof (H _ A1). pose proof (H _ B1).
  destruct (Rle_dec mn 0) as [L|L].
  - assert (E : mn = 0) by lra. destruct (Req_EM_T mn 0); [|contradiction].
    exists true. split; [reflexivity|]. split; [discriminate|]. intros _. exists mn. auto.
  - destruct (Rle_dec 180 mx) as [L'|L'].
    + assert (E : mx = 180) by lra. destruct (Req_EM_T mn 0); [lra|]. destruct (Req_EM_T mx 180); [|contradiction].
      exists true. split; [reflexivity|]. split; [discriminate|]. intros _. exists mx. auto.
    + exists false. split; [reflexivity|]. split; [|discriminate]. intros _ t Ht.
      pose proof (A2 _ Ht). pose proof (B2 _ Ht). lra.
Qed.

Lemma check_poles_false l b : check_poles l = Ok b -> (forall t, In t l -> 0 <= t <= 180) ->
  b = false -> forall t, In t l -> 0 < t < 180.
Proof.
  intros E H. destruct (check_poles_ok l) as (b' & E' & F & _).
  - intros ->. discriminate E.
  - exact H.
  - rewrite E in E'. injection E' as <-. exact F.
Qed.

Lemma check_poles_single t : 0 <= t <= 180 -> exists b, check_poles [t] = Ok b /\ (b = false -> 0 < t < 180).
Proof.
  intros H. destruct (check_poles_ok [t]) as (b & E & F & _); [discriminate|intros u [<-|[]]; exact H|].
  exists b. split; [exact E|]. intros Hb. apply F; [exact Hb|left; reflexivity].
Qed.

(** ** decode with explicit arguments *)
Lemma parse_src_name s : parse_source (Some (src_name s)) = Ok s.
Proof. destruct s; reflexivity. Qed.

Lemma sv_at oob a c radius theta phi nmin nmax mmax source grid F :
  synth_values oob a c radius theta phi nmin nmax mmax source grid = Ok F ->
  exists d, decode c radius theta phi nmin nmax mmax source grid = Ok d /\ f_sh F = e_sh d /\
    forall x, run_point oob a c radius d x = Ok (f_r F x, f_t F x, f_p F x).
Proof.
  intros E. pose proof (synth_values_decode oob a c radius theta phi nmin nmax mmax source grid) as H.
  destruct (decode _ _ _ _ _ _ _ _ _) as [d|e]; [|congruence]. rewrite E in H. eauto.
Qed.

Lemma decode_nogrid c radius theta phi nmin nmax mmax source d :
  decode c radius theta phi nmin nmax mmax source false = Ok d ->
  e_theta d = theta /\ e_phi d = phi /\ check_poles (elems theta) = Ok (e_poles d) /\
  broadcast [sh radius; sh theta; sh phi; csh c] = Ok (e_sh d) /\ parse_source source = Ok (e_s d) /\
  (0 < orZ nmin 1)%Z /\
  (let '(n, m) := infer_nmax (Z.of_nat (cdim c)) (orZ nmin 1) nmax mmax in
   (orZ nmin 1 <= n)%Z /\ e_nmin d = Z.to_nat (orZ nmin 1) /\ e_nmax d = Z.to_nat n /\ e_mmax d = Z.to_nat m).
Proof.
  unfold decode. destruct (check_poles _) as [b|]; [|discriminate]. cbn [bind].
  destruct (Z.leb_spec (orZ nmin 1) 0) as [|H1]; [discriminate|].
  destruct (infer_nmax _ _ _ _) as [n m]. destruct (Z.ltb_spec n (orZ nmin 1)) as [|H2]; [discriminate|].
  unfold gridded. cbn [bind fst snd].
  destruct (broadcast _) as [gs|]; [|discriminate]. cbn [bind].
  destruct (parse_source source); [|discriminate]. cbn [bind]. intros H; injection H as <-. cbn.
  repeat split; try reflexivity; lia.
Qed.

Lemma decode_explicit c radius theta phi nmin nmax mmax source d :
  decode c radius theta phi (Some (Z.of_nat nmin)) (Some (Z.of_nat nmax)) (Some (Z.of_nat mmax)) source false = Ok d ->
  e_theta d = theta /\ e_phi d = phi /\ check_poles (elems theta) = Ok (e_poles d) /\
  broadcast [sh radius; sh theta; sh phi; csh c] = Ok (e_sh d) /\ parse_source source = Ok (e_s d) /\
  (1 <= nmin <= nmax)%nat /\ e_nmin d = nmin /\ e_nmax d = nmax /\ e_mmax d = mmax.
Proof.
  intros D. destruct (decode_nogrid _ _ _ _ _ _ _ _ _ D) as (A & B & C & E & G & H & I). cbn [orZ infer_nmax] in *.
  rewrite !Nat2Z.id in I. repeat split; try tauto; lia.
Qed.

Lemma sv_closed oob a c radius theta phi nmin nmax mmax s F x g h rest :
  synth_values oob a c radius theta phi (Some (Z.of_nat nmin)) (Some (Z.of_nat nmax)) (Some (Z.of_nat mmax)) (Some (src_name s)) false = Ok F ->
  (forall t, In t (elems theta) -> 0 <= t <= 180) -> valid (f_sh F) x ->
  crow c x = gauss_list nmin nmax mmax g h ++ rest ->
  (1 <= nmin <= nmax)%nat /\ 0 <= bread theta x <= 180 /\
  f_r F x = clo_r s a nmin nmax mmax g h (bread radius x) (rad (bread theta x)) (rad (bread phi x)) /\
  f_t F x = clo_t s a nmin nmax mmax g h (bread radius x) (rad (bread theta x)) (rad (bread phi x)) /\
  f_p F x = clo_p s a nmin nmax mmax g h (bread radius x) (rad (bread theta x)) (rad (bread phi x)).
Proof.
  intros E Ht V R. destruct (sv_at _ _ _ _ _ _ _ _ _ _ _ _ E) as (d & D & S & P).
  destruct (decode_explicit _ _ _ _ _ _ _ _ _ D) as (D1 & D2 & D3 & D4 & D5 & D6 & D7 & D8 & D9).
  rewrite parse_src_name in D5. injection D5 as D5. specialize (P x). unfold run_point in P.
  rewrite D1, D2, <- D5, D7, D8, D9, R in P.
  assert (I : In (bread theta x) (elems theta)).
  { apply (bread_in theta (f_sh F)); [|exact V]. rewrite S. apply broadcast_fits in D4.
    inversion D4 as [|? ? _ D4']; subst. inversion D4'; assumption. }
  rewrite synth_point_closed in P; [|exact D6|apply Ht, I|].
  2:{ intros Hf. exact (check_poles_false _ _ D3 Ht Hf _ I). }
  injection P as P1 P2 P3. repeat split; try (symmetry; assumption); try (apply Ht, I); lia.
Qed.

(** ** Success *)
Lemma sv_success oob a c radius theta phi nmin nmax mmax s gsh :
  (1 <= nmin <= nmax)%nat -> elems theta <> [] -> (forall t, In t (elems theta) -> 0 <= t <= 180) ->
  broadcast [sh radius; sh theta; sh phi; csh c] = Ok gsh ->
  (count mmax nmin (nmax + 1) <= cdim c)%nat ->
  exists F, synth_values oob a c radius theta phi (Some (Z.of_nat nmin)) (Some (Z.of_nat nmax)) (Some (Z.of_nat mmax)) (Some (src_name s)) false = Ok F
    /\ f_sh F = gsh.
Proof.
  intros Hn Hne Ht B C.
  pose proof (synth_values_decode oob a c radius theta phi (Some (Z.of_nat nmin)) (Some (Z.of_nat nmax)) (Some (Z.of_nat mmax)) (Some (src_name s)) false) as H.
  destruct (check_poles_ok _ Hne Ht) as (b & Eb & _).
  unfold decode in H. rewrite Eb in H. cbn [bind orZ infer_nmax] in H.
  destruct (Z.leb_spec (Z.of_nat nmin) 0); [lia|]. destruct (Z.ltb_spec (Z.of_nat nmax) (Z.of_nat nmin)); [lia|].
  unfold gridded in H. cbn [bind fst snd] in H. rewrite B, parse_src_name in H. cbn [bind] in H. rewrite !Nat2Z.id in H.
  destruct (synth_values _ _ _ _ _ _ _ _ _ _ _) as [F|e].
  - destruct H as [H _]. exists F. split; [reflexivity|exact H].
  - exfalso. specialize (H []). unfold run_point in H. cbn [e_nmin e_nmax e_mmax e_s e_poles e_theta e_phi] in H.
    destruct (point_weights oob s a nmin nmax mmax b (bread radius []) (bread theta []) (bread phi []) Hn) as (w & W).
    rewrite W in H by (rewrite crow_length; exact C). discriminate.
Qed.

Lemma crow_cvec l x : crow (cvec l) x = l.
Proof.
  unfold crow, cvec. cbn [csh cdim cat]. apply nth_ext with (d := 0) (d' := 0).
  - now rewrite map_length, seq_length.
  - intros n Hn. rewrite map_length, seq_length in Hn.
    rewrite (nth_indep _ 0 (nth 0 l 0)) by (rewrite map_length, seq_length; exact Hn).
    rewrite (map_nth (fun k => nth k l 0)). rewrite seq_nth by exact Hn. reflexivity.
Qed.

(** scalar evaluation *)
Lemma sv_scalar oob a l r t p nmin nmax mmax s g h rest :
  (1 <= nmin <= nmax)%nat -> 0 <= t <= 180 -> l = gauss_list nmin nmax mmax g h ++ rest ->
  exists F, synth_values oob a (cvec l) (scalar r) (scalar t) (scalar p) (Some (Z.of_nat nmin)) (Some (Z.of_nat nmax)) (Some (Z.of_nat mmax)) (Some (src_name s)) false = Ok F
    /\ f_sh F = [] /\
  f_r F [] = clo_r s a nmin nmax mmax g h r (rad t) (rad p) /\
  f_t F [] = clo_t s a nmin nmax mmax g h r (rad t) (rad p) /\
  f_p F [] = clo_p s a nmin nmax mmax g h r (rad t) (rad p).
Proof.
  intros Hn Ht El.
  destruct (sv_success oob a (cvec l) (scalar r) (scalar t) (scalar p) nmin nmax mmax s []) as (F & E & S).
  - exact Hn.
  - discriminate.
  - intros u [<-|[]]. exact Ht.
  - reflexivity.
  - cbn [cvec cdim]. rewrite El, app_length, gauss_list_length. lia.
  - exists F. split; [exact E|]. split; [exact S|].
    destruct (sv_closed _ _ _ _ _ _ _ _ _ _ _ [] g h rest E) as (_ & _ & R).
    + intros u [<-|[]]. exact Ht.
    + rewrite S. constructor.
    + rewrite crow_cvec. exact El.
    + exact R.
Qed.

(** ** C25 *)
Lemma C25 oob a c radius theta phi nmin nmax mmax s F :
  0 < a ->
  synth_values oob a c radius theta phi (Some (Z.of_nat nmin)) (Some (Z.of_nat nmax)) (Some (Z.of_nat mmax)) (Some (src_name s)) false = Ok F ->
  (forall t, In t (elems theta) -> 0 <= t <= 180) ->
  forall x g h rest, valid (f_sh F) x -> 0 < bread radius x ->
  crow c x = gauss_list nmin nmax mmax g h ++ rest ->
  let r := bread radius x in let t := rad (bread theta x) in let p := rad (bread phi x) in
  let V := potential s a nmin nmax mmax g h in
  is_derive (fun r' => V r' t p) r (- f_r F x) /\
  is_derive (fun t' => V r t' p) t (- (r * f_t F x)) /\
  is_derive (fun p' => V r t p') p (- (r * sin t * f_p F x)).
Proof.
  intros Ha E Ht x g h rest V Hr R r t p VV.
  destruct (sv_closed _ _ _ _ _ _ _ _ _ _ _ x g h rest E Ht V R) as (Hn & _ & -> & -> & ->).
  unfold VV, r, t, p. split; [|split].
  - apply grad_r; assumption.
  - apply grad_t; assumption.
  - apply grad_p; assumption.
Qed.

(** ** C27 *)
Definition comp_r (res : result field) : R := match res with Ok F => f_r F [] | Err _ => 0 end.
Definition comp_t (res : result field) : R := match res with Ok F => f_t F [] | Err _ => 0 end.
Definition comp_p (res : result field) : R := match res with Ok F => f_p F [] | Err _ => 0 end.

Lemma continuous_rad t : continuous rad t.
Proof. apply (@ex_derive_continuous R_AbsRing R_NormedModule). unfold rad. auto_derive. exact I. Qed.

Lemma rep_ex mmax nmin nmax l : (nmin <= nmax + 1)%nat -> (count mmax nmin (nmax + 1) <= List.length l)%nat ->
  exists g h rest, l = gauss_list nmin nmax mmax g h ++ rest.
Proof. intros H L. do 3 eexists. exact (gauss_rep mmax nmin l nmax H L). Qed.

Lemma filterlim_within (f G : R -> R) (D : R -> Prop) t0 :
  continuous G t0 -> (forall t, D t -> f t = G t) -> f t0 = G t0 ->
  filterlim f (within D (locally t0)) (locally (f t0)).
Proof.
  intros C E E0. rewrite E0.
  apply (filterlim_within_ext D G f).
  - intros t Ht. symmetry. apply E, Ht.
  - apply (filterlim_filter_le_1 (F := locally t0) (G := within D (locally t0)) G); [|exact C].
    apply filter_le_within.
Qed.

Lemma C27 oob a l nmin nmax mmax s r p : (1 <= nmin <= nmax)%nat -> (count mmax nmin (nmax + 1) <= List.length l)%nat ->
  let B t := synth_values oob a (cvec l) (scalar r) (scalar t) (scalar p)
               (Some (Z.of_nat nmin)) (Some (Z.of_nat nmax)) (Some (Z.of_nat mmax)) (Some (src_name s)) false in
  forall t0, t0 = 0 \/ t0 = 180 ->
  (exists F, B t0 = Ok F) /\
  let D t := 0 < t < 180 in
  filterlim (fun t => comp_r (B t)) (within D (locally t0)) (locally (comp_r (B t0))) /\
  filterlim (fun t => comp_t (B t)) (within D (locally t0)) (locally (comp_t (B t0))) /\
  filterlim (fun t => comp_p (B t)) (within D (locally t0)) (locally (comp_p (B t0))).
Proof.
  intros Hn L B t0 H0. destruct (rep_ex mmax nmin nmax l ltac:(lia) L) as (g & h & rest & E).
  assert (C : forall t, 0 <= t <= 180 -> exists F, B t = Ok F /\
     f_r F [] = clo_r s a nmin nmax mmax g h r (rad t) (rad p) /\
     f_t F [] = clo_t s a nmin nmax mmax g h r (rad t) (rad p) /\
     f_p F [] = clo_p s a nmin nmax mmax g h r (rad t) (rad p)).
  { intros t Ht. destruct (sv_scalar oob a l r t p nmin nmax mmax s g h rest Hn Ht E) as (F & EF & _ & X). exists F. split; [exact EF|exact X]. }
  assert (Hr : 0 <= t0 <= 180) by lra.
  assert (T : forall t, 0 < t < 180 -> 0 <= t <= 180) by (intros; lra).
  split; [destruct (C t0 Hr) as (F & EF & _); eauto|].
  intros D. destruct (continuous_clo s a nmin nmax mmax g h r (rad t0) (rad p)) as (C1 & C2 & C3).
  split; [|split].
  - apply (filterlim_within (fun t => comp_r (B t)) (fun t => clo_r s a nmin nmax mmax g h r (rad t) (rad p))).
    + apply (continuous_comp rad (fun t => clo_r s a nmin nmax mmax g h r t (rad p))); [apply continuous_rad|exact C1].
    + intros t Ht. destruct (C t (T t Ht)) as (F & -> & X & _). exact X.
    + destruct (C t0 Hr) as (F & -> & X & _). exact X.
  - apply (filterlim_within (fun t => comp_t (B t)) (fun t => clo_t s a nmin nmax mmax g h r (rad t) (rad p))).
    + apply (continuous_comp rad (fun t => clo_t s a nmin nmax mmax g h r t (rad p))); [apply continuous_rad|exact C2].
    + intros t Ht. destruct (C t (T t Ht)) as (F & -> & _ & X & _). exact X.
    + destruct (C t0 Hr) as (F & -> & _ & X & _). exact X.
  - apply (filterlim_within (fun t => comp_p (B t)) (fun t => clo_p s a nmin nmax mmax g h r (rad t) (rad p))).
    + apply (continuous_comp rad (fun t => clo_p s a nmin nmax mmax g h r t (rad p))); [apply continuous_rad|exact C3].
    + intros t Ht. destruct (C t (T t Ht)) as (F & -> & _ & _ & X). exact X.
    + destruct (C t0 Hr) as (F & -> & _ & _ & X). exact X.
Qed.
