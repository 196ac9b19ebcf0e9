(** Remaining proofs and concrete cases for Props_Synth. *)
From Coq Require Import Reals List Arith ZArith String Bool Lia Lra.
From Coquelicot Require Import Coquelicot.
From Verif Require Import M_Prelude M_ND P_ND Spec_Legendre Spec_Field M_Legendre P_Legendre2 P_LegendreTab P_LegendreProps M_Synth M_SynthArr
  P_Synth P_SynthArr P_SynthClosed P_Layout P_Design P_SynthProps P_SynthProps2 P_SynthProps3 P_Laplace.
Import ListNotations.
Open Scope R_scope.

Local Notation synth oob a c radius theta phi nmin nmax mmax s :=
  (synth_values oob a c radius theta phi (Some (Z.of_nat nmin)) (Some (Z.of_nat nmax)) (Some (Z.of_nat mmax))
    (Some (src_name s)) false) (only parsing).

Lemma C18_synthesis oob a l r theta phi nmax s F :
  0 < a -> 0 < r -> 0 <= theta <= 180 -> (nmax * (nmax + 2) <= List.length l)%nat ->
  synth oob a (cvec l) (scalar r) (scalar theta) (scalar phi) 1 nmax nmax s = Ok F ->
  let V := potential s a 1 nmax nmax (fun n m => nth (gidx n m) l 0) (fun n m => nth (hidx n m) l 0) in
  is_derive (fun r' => V r' (rad theta) (rad phi)) r (- f_r F []) /\
  is_derive (fun t' => V r t' (rad phi)) (rad theta) (- (r * f_t F [])) /\
  is_derive (fun p' => V r (rad theta) p') (rad phi) (- (r * sin (rad theta) * f_p F [])).
Proof.
  intros Ha Hr Ht L E V. destruct (gauss_positions nmax l L) as (rest & El).
  assert (S : f_sh F = []).
  { destruct (sv_at _ _ _ _ _ _ _ _ _ _ _ _ E) as (d & D & S & _). rewrite S.
    apply decode_nogrid in D. destruct D as (_ & _ & _ & D & _). cbn in D. injection D as <-. reflexivity. }
  apply (C25 oob a (cvec l) (scalar r) (scalar theta) (scalar phi) 1 nmax nmax s F Ha E) with (rest := rest) (x := []).
  - intros t [<-|[]]. exact Ht.
  - rewrite S. constructor.
  - exact Hr.
  - rewrite crow_cvec. exact El.
Qed.

Lemma C19_columns oob a radius theta phi nmax nmin mmax s G :
  design_gauss oob a radius theta phi (Z.of_nat nmax) (Some (Z.of_nat nmin)) (Some (Z.of_nat mmax)) (Some (src_name s)) = Ok G ->
  (forall t, In t (elems theta) -> 0 <= t <= 180) ->
  forall l,
  ((g_dim G <= List.length l)%nat -> exists F, synth oob a (cvec l) radius theta phi nmin nmax mmax s = Ok F) /\
  ((List.length l < g_dim G)%nat -> synth oob a (cvec l) radius theta phi nmin nmax mmax s = Err IndexError).
Proof.
  intros E Ht l. destruct (design_gauss_spec _ _ _ _ _ _ _ _ _ _ E) as (s' & poles & B1 & B2 & B3 & B4 & B5 & B6 & _).
  cbn [orZ] in *. rewrite !Nat2Z.id in B6.
  assert (Hne : elems theta <> []) by (intros X; rewrite X in B4; discriminate).
  assert (B : broadcast [sh radius; sh theta; sh phi; csh (cvec l)] = Ok (g_sh G)) by (cbn [cvec csh]; rewrite broadcast_snoc_nil; exact B5).
  split; intros L.
  - destruct (sv_success oob a (cvec l) radius theta phi nmin nmax mmax s (g_sh G)) as (F & EF & _); try assumption; [lia|cbn; lia|].
    exists F. exact EF.
  - apply (too_few oob a (cvec l) radius theta phi nmin nmax mmax s (g_sh G)); try assumption; [lia|cbn; lia].
Qed.

Lemma C19_infer oob a radius theta phi nmin nmax g h source grid :
  (1 <= nmin <= nmax)%nat ->
  synth_values oob a (cvec (gauss_list nmin nmax nmax g h)) radius theta phi (Some (Z.of_nat nmin)) None None source grid =
  synth_values oob a (cvec (gauss_list nmin nmax nmax g h)) radius theta phi (Some (Z.of_nat nmin))
    (Some (Z.of_nat nmax)) (Some (Z.of_nat nmax)) source grid.
Proof.
  intros H. unfold synth_values. cbn [orZ]. 
  replace (infer_nmax (Z.of_nat (cdim (cvec (gauss_list nmin nmax nmax g h)))) (Z.of_nat nmin) None None)
    with (infer_nmax (Z.of_nat (cdim (cvec (gauss_list nmin nmax nmax g h)))) (Z.of_nat nmin) (Some (Z.of_nat nmax)) (Some (Z.of_nat nmax))); [reflexivity|].
  change (cdim (cvec (gauss_list nmin nmax nmax g h))) with (List.length (gauss_list nmin nmax nmax g h)).
  rewrite gauss_list_length. rewrite infer_full by lia. reflexivity.
Qed.

Lemma C19_infer_mmax oob a radius theta phi nmin nmax mmax g h source grid :
  (1 <= nmin <= nmax)%nat -> (mmax <= nmax)%nat ->
  synth_values oob a (cvec (gauss_list nmin nmax mmax g h)) radius theta phi (Some (Z.of_nat nmin)) None (Some (Z.of_nat mmax)) source grid =
  synth_values oob a (cvec (gauss_list nmin nmax mmax g h)) radius theta phi (Some (Z.of_nat nmin))
    (Some (Z.of_nat nmax)) (Some (Z.of_nat mmax)) source grid.
Proof.
  intros H H'. unfold synth_values. cbn [orZ]. 
  replace (infer_nmax (Z.of_nat (cdim (cvec (gauss_list nmin nmax mmax g h)))) (Z.of_nat nmin) None (Some (Z.of_nat mmax)))
    with (infer_nmax (Z.of_nat (cdim (cvec (gauss_list nmin nmax mmax g h)))) (Z.of_nat nmin) (Some (Z.of_nat nmax)) (Some (Z.of_nat mmax))); [reflexivity|].
  change (cdim (cvec (gauss_list nmin nmax mmax g h))) with (List.length (gauss_list nmin nmax mmax g h)).
  rewrite gauss_list_length. rewrite infer_mmax by lia. reflexivity.
Qed.

Lemma C19_def oob a c radius theta phi n grid :
  synth_values oob a c radius theta phi None (Some n) None None grid =
  synth_values oob a c radius theta phi (Some 1%Z) (Some n) (Some n) (Some "internal"%string) grid.
Proof. reflexivity. Qed.

Lemma C25_success oob a c radius theta phi nmin nmax mmax s gsh g h rest :
  (1 <= nmin <= nmax)%nat -> elems theta <> [] -> (forall t, In t (elems theta) -> 0 <= t <= 180) ->
  broadcast [sh radius; sh theta; sh phi; csh c] = Ok gsh ->
  crow c [] = gauss_list nmin nmax mmax g h ++ rest ->
  exists F, synth oob a c radius theta phi nmin nmax mmax s = Ok F /\ f_sh F = gsh.
Proof.
  intros H1 H2 H3 H4 E. apply sv_success; try assumption.
  rewrite <- (crow_length c []), E, app_length, gauss_list_length. lia.
Qed.

Lemma C27_limits oob a l nmin nmax mmax s r p :
  (1 <= nmin <= nmax)%nat -> (exists g h rest, l = gauss_list nmin nmax mmax g h ++ rest) ->
  let B t := synth oob a (cvec l) (scalar r) (scalar t) (scalar p) nmin nmax mmax s in
  let comp (f : field -> list nat -> R) t := match B t with Ok F => f F [] | Err _ => 0 end in
  forall t0, t0 = 0 \/ t0 = 180 ->
  (exists F, B t0 = Ok F) /\
  filterlim (comp f_r) (within (fun t => 0 < t < 180) (locally t0)) (locally (comp f_r t0)) /\
  filterlim (comp f_t) (within (fun t => 0 < t < 180) (locally t0)) (locally (comp f_t t0)) /\
  filterlim (comp f_p) (within (fun t => 0 < t < 180) (locally t0)) (locally (comp f_p t0)).
Proof.
  intros Hn (g & h & rest & E) B comp t0 H0.
  apply (C27 oob a l nmin nmax mmax s r p Hn); [|exact H0].
  rewrite E, app_length, gauss_list_length. lia.
Qed.

Lemma C29_scalar oob a c radius t phi nmin nmax mmax source grid :
  t < 0 \/ 180 < t ->
  synth_values oob a c radius (scalar t) phi nmin nmax mmax source grid = Err ValueError.
Proof.
  intros H. apply C29_partial.
  - exists t. split; [left; reflexivity|exact H].
  - intros [E|[]]. cbn in E. lra.
  - intros [E|[]]. cbn in E. lra.
Qed.

Lemma C29_refuted :
  ~ (forall oob a c radius theta phi nmin nmax mmax source grid,
       (exists t, In t (elems theta) /\ (t < 0 \/ 180 < t)) ->
       synth_values oob a c radius theta phi nmin nmax mmax source grid = Err ValueError).
Proof.
  intros H.
  specialize (H 0 1 (cvec [1; 0; 0]) (scalar 1) (vec 0 [0; 200]) (scalar 0) None (Some 1%Z) None None false).
  assert (X : exists t, In t (elems (vec 0 [0; 200])) /\ (t < 0 \/ 180 < t)).
  { exists 200. split; [right; left; reflexivity|right; lra]. }
  specialize (H X). clear X.
  assert (X : exists F, synth_values 0 1 (cvec [1; 0; 0]) (scalar 1) (vec 0 [0; 200]) (scalar 0) None (Some 1%Z) None None false = Ok F).
  { unfold synth_values. rewrite elems_vec, check_poles_0_200. cbn [bind]. cbn. eexists. reflexivity. }
  destruct X as (F & X). rewrite X in H. discriminate.
Qed.

Lemma synth_decode_err oob a c radius theta phi nmin nmax mmax source grid :
  is_err (decode c radius theta phi nmin nmax mmax source grid) ->
  is_err (synth_values oob a c radius theta phi nmin nmax mmax source grid).
Proof.
  intros H. pose proof (synth_values_decode oob a c radius theta phi nmin nmax mmax source grid) as D.
  destruct H as (e & H). rewrite H in D. exists e. exact D.
Qed.

Lemma C32_source oob a c radius theta phi nmin nmax mmax str grid :
  str <> "internal"%string -> str <> "external"%string ->
  is_err (synth_values oob a c radius theta phi nmin nmax mmax (Some str) grid).
Proof.
  intros H1 H2. apply synth_decode_err. unfold decode.
  destruct (check_poles _); [|(eexists; reflexivity)]. cbn [bind]. destruct (_ <=? _)%Z; [(eexists; reflexivity)|].
  destruct (infer_nmax _ _ _ _). destruct (_ <? _)%Z; [(eexists; reflexivity)|].
  destruct (gridded _ _ _); [|(eexists; reflexivity)]. cbn [bind]. destruct (broadcast _); [|(eexists; reflexivity)]. cbn [bind].
  unfold parse_source. destruct (String.eqb_spec str "internal"); [contradiction|].
  destruct (String.eqb_spec str "external"); [contradiction|]. (eexists; reflexivity).
Qed.

Lemma C32_range oob a c radius theta phi nmin nmax mmax source grid :
  (nmin < 1 \/ nmax < nmin)%Z ->
  is_err (synth_values oob a c radius theta phi (Some nmin) (Some nmax) mmax source grid).
Proof.
  intros H. apply synth_decode_err. unfold decode.
  destruct (check_poles _); [|(eexists; reflexivity)]. cbn [bind orZ]. destruct (Z.leb_spec nmin 0); [(eexists; reflexivity)|].
  destruct mmax as [m|]; cbn [infer_nmax]; (destruct (Z.ltb_spec nmax nmin); [(eexists; reflexivity)|lia]).
Qed.

Lemma C32_few oob a c radius theta phi nmin nmax mmax s gsh :
  (1 <= nmin <= nmax)%nat -> elems theta <> [] -> (forall t, In t (elems theta) -> 0 <= t <= 180) ->
  broadcast [sh radius; sh theta; sh phi; csh c] = Ok gsh ->
  (forall g h, cdim c < List.length (gauss_list nmin nmax mmax g h))%nat ->
  synth oob a c radius theta phi nmin nmax mmax s = Err IndexError.
Proof.
  intros H1 H2 H3 H4 H5. apply (too_few oob a c radius theta phi nmin nmax mmax s gsh); try assumption.
  specialize (H5 (fun _ _ => 0) (fun _ _ => 0)). rewrite gauss_list_length in H5. exact H5.
Qed.

Lemma C32_shapes oob a c radius theta phi nmin nmax mmax source e :
  broadcast [sh radius; sh theta; sh phi; csh c] = Err e ->
  is_err (synth_values oob a c radius theta phi nmin nmax mmax source false).
Proof.
  intros H. apply synth_decode_err. unfold decode.
  destruct (check_poles _); [|(eexists; reflexivity)]. cbn [bind]. destruct (_ <=? _)%Z; [(eexists; reflexivity)|].
  destruct (infer_nmax _ _ _ _). destruct (_ <? _)%Z; [(eexists; reflexivity)|].
  unfold gridded. cbn [bind fst snd]. rewrite H. (eexists; reflexivity).
Qed.

Lemma C32_empty oob a c radius theta phi nmin nmax mmax source grid :
  elems theta = [] -> synth_values oob a c radius theta phi nmin nmax mmax source grid = Err ValueError.
Proof. intros H. unfold synth_values. rewrite H. reflexivity. Qed.

Lemma C72_div oob a l nmin nmax mmax s r theta phi :
  0 < a -> 0 < r -> 0 < theta < 180 -> (1 <= nmin <= nmax)%nat ->
  (exists g h rest, l = gauss_list nmin nmax mmax g h ++ rest) ->
  let B r t p := synth oob a (cvec l) (scalar r) (scalar (t * 180 / PI)) (scalar (p * 180 / PI)) nmin nmax mmax s in
  let comp (f : field -> list nat -> R) r t p := match B r t p with Ok F => f F [] | Err _ => 0 end in
  let t := rad theta in let p := rad phi in
  exists d_r d_t d_p,
    is_derive (fun x => x ^ 2 * comp f_r x t p) r d_r /\
    is_derive (fun x => sin x * comp f_t r x p) t d_t /\
    is_derive (fun x => comp f_p r t x) p d_p /\
    d_r / r ^ 2 + d_t / (r * sin t) + d_p / (r * sin t) = 0.
Proof.
  intros Ha Hr Ht Hn (g & h & rest & E). apply (C72 oob a l nmin nmax mmax s r theta phi Ha Hr Ht Hn).
  rewrite E, app_length, gauss_list_length. lia.
Qed.

(** Concrete cases *)
Lemma rad_60 : rad 60 = PI / 3. Proof. unfold rad. field. Qed.

Lemma ex_dipole :
  exists F, synth 0 6371.2 (cvec [-30000; 0; 0]) (scalar 6371.2) (scalar 60) (scalar 10) 1 1 1 Internal = Ok F /\
    f_r F [] = -30000 /\ f_t F [] = -30000 * (sqrt 3 / 2) /\ f_p F [] = 0.
Proof.
  destruct (sv_scalar 0 6371.2 [-30000; 0; 0] 6371.2 60 10 1 1 1 Internal (fun _ m => match m with O => -30000 | _ => 0 end) (fun _ _ => 0) [])
    as (F & E & _ & R & T & P); [lia|lra|reflexivity|].
  exists F. split; [exact E|]. rewrite R, T, P, rad_60.
  unfold clo_r, clo_t, clo_p, sum_r, sum_t, sum_p, ang, ang', rr, kk, range_incl. cbn [Nat.add Nat.sub Nat.min seq map Rsum fold_right].
  rewrite ex_schmidt_1_0, ex_schmidt_1_1. replace (6371.2 / 6371.2) with 1 by (symmetry; apply Rinv_r; lra). rewrite cos_PI3, pow1.
  assert (E0 : rawd 1 0 (PI / 3) = - (sqrt 3 / 2)).
  { transitivity (- sin (PI / 3)); [|rewrite sin_PI3; reflexivity].
    pose proof (is_derive_unique _ _ _ (is_derive_schmidt_raw 1 0 (PI / 3))) as X. fold (rawd 1 0 (PI / 3)) in X. rewrite <- X.
    apply is_derive_unique. apply (is_derive_ext cos); [intros t; symmetry; apply ex_schmidt_1_0|]. apply is_derive_cos. }
  rewrite E0. change (INR 0) with 0. change (INR 1) with 1. change (INR 2) with 2.
  rewrite Rmult_0_l, cos_0, sin_0. repeat split; field.
Qed.

Lemma ex_array : exists F,
  synth 0 6371.2 (cvec [1; 2; 3; 4; 5; 6; 7; 8]) (scalar 6400) (vec 0 [0; 45; 180]) (scalar 10) 1 2 2 External = Ok F /\ f_sh F = [3%nat].
Proof.
  apply sv_success.
  - lia.
  - rewrite elems_vec. discriminate.
  - rewrite elems_vec. intros t [<-|[<-|[<-|[]]]]; lra.
  - reflexivity.
  - cbn. lia.
Qed.

Lemma ex_grid : exists F,
  synth_values 0 6371.2 (cvec [1; 2; 3]) (scalar 6400) (vec 0 [30; 45]) (vec 0 [10; 20; 30]) None None None None true = Ok F.
Proof.
  unfold synth_values. rewrite elems_vec.
  destruct (check_poles_ok [30; 45]) as (b & E & _); [discriminate|intros t [<-|[<-|[]]]; lra|]. rewrite E.
  cbn [bind]. eexists. cbn. reflexivity.
Qed.

Lemma ex_design : exists G,
  design_gauss 0 6371.2 (scalar 6400) (vec 0 [30; 45]) (scalar 10) 3 (Some 2%Z) (Some 1%Z) None = Ok G /\ g_dim G = 6%nat.
Proof.
  destruct (check_poles_ok [30; 45]) as (b & E & _); [discriminate|intros t [<-|[<-|[]]]; lra|].
  destruct (design_gauss_ok 0 6371.2 (scalar 6400) (vec 0 [30; 45]) (scalar 10) 3 (Some 2%Z) (Some 1%Z) None Internal b [2%nat]) as (G & EG).
  - cbn. lia.
  - cbn. lia.
  - reflexivity.
  - rewrite elems_vec. exact E.
  - reflexivity.
  - exists G. split; [exact EG|]. destruct (design_gauss_spec _ _ _ _ _ _ _ _ _ _ EG) as (s & p & _ & _ & _ & _ & _ & D & _).
    rewrite D. reflexivity.
Qed.
