(** SHC files: the complete round trip, accuracy of the times, failures. *)
From Coq Require Import List Arith ZArith QArith Qabs Qround Ascii String Bool Lia Lqa.
From Verif Require Import M_Prelude M_Time M_Text M_SHC P_Text P_SHC P_SHC2 Spec_SHC Spec_Field Spec_Calendar P_Time P_Time2.
Import ListNotations.

Lemma dyear_total t lp : exists x, dyear_to_mjd t lp = Ok x.
Proof.
  unfold dyear_to_mjd. destruct (match lp with None => true | Some b => b end); [|eexists; reflexivity].
  unfold mjd2000_ymd. destruct (mjd2000_valid_ok (Qfloor t) 1 1 0 0 0 0 0 (jan1_valid _)) as [q ->]. eexists. reflexivity.
Qed.
Lemma mjd_total t lp : exists x, mjd_to_dyear t lp = Ok x.
Proof.
  unfold mjd_to_dyear. destruct (match lp with None => true | Some b => b end); [|eexists; reflexivity].
  unfold mjd2000_ymd. edestruct mjd2000_valid_ok as [q Eq]; [apply jan1_valid|]. rewrite Eq. eexists. reflexivity.
Qed.

Definition nmin_arg (nmin : option Z) : Z := match nmin with None => 1%Z | Some n => n end.
Definition nmax_arg (cols : nat) (nmax : option Z) : Z := match nmax with None => (Z.sqrt (Z.of_nat cols + 1) - 1)%Z | Some n => n end.

Lemma C47_full now fs l coeffs order path nmin nmax lp header a b :
  nmin_arg nmin = Z.of_nat a -> nmax_arg (c_cols coeffs) nmax = Z.of_nat b ->
  (1 <= a <= b)%nat -> ((b + 1) * (b + 1) - 1 <= c_cols coeffs)%nat ->
  (if c_one_dim coeffs then 1%nat else c_rows coeffs) = List.length l ->
  (match header with None => True | Some h => comment_lines h end) -> ~ In "010"%char now ->
  let flag := Some (match lp with None => true | Some f => f end) in
  let k := match order with None => 1%Z | Some o => o end in
  exists fs' text s,
    save_shcfile now fs (TVec l) coeffs order path nmin nmax lp header = (fs', Ok tt) /\
    fs' (match path with None => "model.shc"%string | Some p => p end) = Some text /\
    load_shcfile text flag None = Ok s /\
    l_params s = [Z.of_nat a; Z.of_nat b; Z.of_nat (List.length l); k; (k - 1)%Z] /\
    Forall2 (fun t t' => exists y q, mjd_to_dyear t flag = Ok y /\ eight_decimals y q /\ dyear_to_mjd q flag = Ok t') l (l_time s) /\
    List.length (l_rows s) = ((b + 1) * (b + 1) - a * a)%nat /\
    forall j i, (j < List.length (l_rows s))%nat -> (i < List.length l)%nat ->
      exists row, nth_error (l_rows s) j = Some row /\ List.length row = List.length l /\
        eight_decimals (c_at coeffs i (a * a - 1 + j)%nat) (nth i row 0%Q).
Proof.
  intros Ha Hb Hab Hc Hr Hh Hn flag k.
  destruct (mapM_total (fun t => mjd_to_dyear t flag) l) as [ys HY]; [intros x _; apply mjd_total|].
  pose proof (save_ok now fs l coeffs order path nmin nmax lp header ys a b Ha Hb Hab Hc HY) as SV.
  destruct (C47 now fs l coeffs order path nmin nmax lp header _ a b SV Ha Hb ltac:(lia) Hc Hr Hh Hn) as (text & ET & X).
  eexists. exists text. destruct X as [(s & A)|(t & y & q & e & _ & _ & _ & X)].
  - exists s. split; [exact SV|]. split; [exact ET|]. exact A.
  - exfalso. destruct (dyear_total q (Some match lp with Some f => f | None => true end)) as [x Ex]. rewrite Ex in X. discriminate.
Qed.

(** ** Accuracy of the times *)
Lemma days_bound y : (0 < inject_Z (days_per_year y) /\ inject_Z (days_per_year y) <= 366)%Q.
Proof.
  split; [apply days_per_year_pos|]. unfold days_per_year. destruct (is_leap_year y); unfold Qle; cbn; lia.
Qed.
Lemma floor_close y q : (y <= q)%Q -> (q - y < 1)%Q -> Qfloor q = Qfloor y \/ Qfloor q = (Qfloor y + 1)%Z.
Proof.
  intros H1 H2. pose proof (Qfloor_le y). pose proof (Qlt_floor y). pose proof (Qfloor_le q). pose proof (Qlt_floor q).
  assert (A : (inject_Z (Qfloor y) < inject_Z (Qfloor q + 1))%Q) by lra.
  assert (B : (inject_Z (Qfloor q) < inject_Z (Qfloor y + 2))%Q) by (rewrite (inject_Z_plus (Qfloor y) 2), (inject_Z_plus (Qfloor y) 1) in *; change (inject_Z 1) with 1%Q in *; change (inject_Z 2) with 2%Q in *; lra).
  rewrite <- Zlt_Qlt in A, B. lia.
Qed.
Lemma dyear_lip y q z x : (1708 <= y)%Q -> (y <= q)%Q -> (q < 2293)%Q -> (q - y < 1)%Q ->
  dyear_to_mjd y None = Ok z -> dyear_to_mjd q None = Ok x -> (0 <= x - z /\ x - z <= 366 * (q - y))%Q.
Proof.
  intros H1 H2 H3 H4 Ez Ex.
  destruct (dyear_to_mjd_val y _ (dyear_ok_year y ltac:(lra) ltac:(lra)) eq_refl) as [z' [E1 V1]]. rewrite E1 in Ez. injection Ez as <-.
  destruct (dyear_to_mjd_val q _ (dyear_ok_year q ltac:(lra) ltac:(lra)) eq_refl) as [x' [E2 V2]]. rewrite E2 in Ex. injection Ex as <-.
  pose proof (Qfloor_le y). pose proof (Qlt_floor y) as Fy. pose proof (Qfloor_le q) as Fq.
  destruct (days_bound (Qfloor y)) as [D0 D1]. destruct (floor_close y q H2 H4) as [E|E]; rewrite E in V2, Fq.
  - set (D := inject_Z (days_per_year (Qfloor y))) in *. split; [|].
    + assert (0 <= (q - y) * D)%Q by (apply Qmult_le_0_compat; lra). lra.
    + assert ((q - y) * D <= (q - y) * 366)%Q by (apply (Qmult_le_compat_nonneg); split; lra). lra.
  - rewrite inject_Z_plus in *. change (inject_Z 1) with 1%Q in *.
    assert (J : (inject_Z (jan1 (Qfloor y + 1)) == inject_Z (jan1 (Qfloor y)) + inject_Z (days_per_year (Qfloor y)))%Q) by (rewrite jan1_step, inject_Z_plus; reflexivity).
    destruct (days_bound (Qfloor y + 1)) as [D2 D3].
    set (D := inject_Z (days_per_year (Qfloor y))) in *. set (D' := inject_Z (days_per_year (Qfloor y + 1))) in *. set (n := inject_Z (Qfloor y)) in *.
    assert (X : (x' - z' == (q - (n + 1)) * D' + (n + 1 - y) * D)%Q) by (rewrite V2, V1, J; ring).
    assert (0 <= (q - (n + 1)) * D' /\ (q - (n + 1)) * D' <= (q - (n + 1)) * 366)%Q by (split; [apply Qmult_le_0_compat; lra|apply Qmult_le_compat_nonneg; split; lra]).
    assert (0 <= (n + 1 - y) * D /\ (n + 1 - y) * D <= (n + 1 - y) * 366)%Q by (split; [apply Qmult_le_0_compat; lra|apply Qmult_le_compat_nonneg; split; lra]).
    lra.
Qed.

Lemma C47_time t lp y q t' : 
  (match lp with Some false => True | _ => (-106650 <= t)%Q /\ (t < 107016)%Q end) ->
  mjd_to_dyear t lp = Ok y -> eight_decimals y q -> dyear_to_mjd q lp = Ok t' -> (Qabs (t' - t) <= 2 # 1000000)%Q.
Proof.
  intros Ht Ey (k & _ & Hq) Et. apply Qabs_Qle_condition in Hq. apply Qabs_Qle_condition.
  assert (TRUE : forall t, (-106650 <= t)%Q -> (t < 107016)%Q -> mjd_to_dyear t None = Ok y -> dyear_to_mjd q None = Ok t' -> (- (2 # 1000000) <= t' - t /\ t' - t <= 2 # 1000000)%Q).
  { clear t Ht Ey Et. intros t H1 H2 Ey Et.
    assert (MO : mjd_ok t) by (unfold mjd_ok; split; lra).
    destruct (mjd_round_trip t MO) as (y' & E1 & z & E2 & V). rewrite Ey in E1. injection E1 as <-.
    destruct (mjd_to_dyear_year t MO) as (y'' & E3 & W & F). rewrite Ey in E3. injection E3 as <-.
    pose proof (mjd_ok_year t MO) as YO. pose proof (year_of_mjd_spec t) as [A B].
    set (n := year_of_mjd t) in *. destruct (days_bound n) as [D0 D1]. rewrite jan1_step, inject_Z_plus in B. set (D := inject_Z (days_per_year n)) in *.
    (* y stays away from the ends *)
    assert (R : (1708 + (1 # 200000000) <= y /\ y + (1 # 200000000) < 2293)%Q).
    { assert (YD : ((y - inject_Z n) * D == t - inject_Z (jan1 n))%Q) by (rewrite W; field; lra).
      split.
      - destruct (Z.eq_dec n 1708) as [E|E].
        + rewrite E in *. change (inject_Z (jan1 1708)) with (-106651 # 1) in *. change (inject_Z 1708) with (1708 # 1) in *.
          assert (G : (1 <= (y - 1708) * 366)%Q).
          { assert (0 <= y - 1708)%Q. { assert (0 <= (t - (-106651 # 1)) / D)%Q by (apply Qle_shift_div_l; lra). lra. }
            assert ((y - 1708) * D <= (y - 1708) * 366)%Q by (apply Qmult_le_compat_nonneg; split; lra). lra. }
          lra.
        + assert (N : (inject_Z 1709 <= inject_Z n)%Q) by (rewrite <- Zle_Qle; unfold year_ok in YO; lia).
          change (inject_Z 1709) with (1709 # 1) in N. assert (0 <= (t - inject_Z (jan1 n)) / D)%Q by (apply Qle_shift_div_l; lra). lra.
      - destruct (Z.eq_dec n 2292) as [E|E].
        + assert (J : (inject_Z (jan1 n) + D == 107017)%Q) by (unfold D; rewrite E; reflexivity).
          rewrite E in YD, W, A. change (inject_Z 2292) with (2292 # 1) in *.
          assert (G : (1 < (2293 - y) * 366)%Q).
          { rewrite E in J. assert (0 <= 2293 - y)%Q. { assert ((t - inject_Z (jan1 2292)) / D <= 1)%Q by (apply Qle_shift_div_r; lra). lra. }
            assert ((2293 - y) * D <= (2293 - y) * 366)%Q by (apply Qmult_le_compat_nonneg; split; lra).
            assert ((2293 - y) * D == D - (y - 2292) * D)%Q by ring. lra. }
          lra.
        + assert (N : (inject_Z n <= inject_Z 2291)%Q) by (rewrite <- Zle_Qle; unfold year_ok in YO; lia).
          change (inject_Z 2291) with (2291 # 1) in N. assert ((t - inject_Z (jan1 n)) / D < 1)%Q by (apply Qlt_shift_div_r; lra). lra. }
    destruct (Qlt_le_dec q y) as [L|L].
    - pose proof (dyear_lip q y t' z ltac:(lra) ltac:(lra) ltac:(lra) ltac:(lra) Et E2). lra.
    - pose proof (dyear_lip y q z t' ltac:(lra) ltac:(lra) ltac:(lra) ltac:(lra) E2 Et). lra. }
  destruct lp as [[]|].
  - apply (TRUE t (proj1 Ht) (proj2 Ht)); assumption.
  - unfold mjd_to_dyear in Ey. unfold dyear_to_mjd in Et. cbn iota in Ey, Et. injection Ey as <-. injection Et as <-.
    assert (X : ((q - 2000) * (36525 # 100) - t == (q - (t / (36525 # 100) + 2000)) * (36525 # 100))%Q) by field. rewrite X. lra.
  - apply (TRUE t (proj1 Ht) (proj2 Ht)); assumption.
Qed.

(** ** Labels *)
Lemma C47_label nmin nmax n m : (1 <= nmin <= n)%nat -> (n <= nmax)%nat -> (m <= n)%nat ->
  nth_error (deg_ord nmin nmax) (g_position n m - (nmin * nmin - 1)) = Some (n, Z.of_nat m) /\
  ((1 <= m)%nat -> nth_error (deg_ord nmin nmax) (h_position n m - (nmin * nmin - 1)) = Some (n, (- Z.of_nat m)%Z)).
Proof.
  intros H1 H2 H3. split.
  - rewrite <- (deg_ord_nth nmin nmax n _ _ H1 H2 (blk_g n m H3)). f_equal. unfold g_position. destruct (Nat.eqb_spec m 0); nia.
  - intros H4. rewrite <- (deg_ord_nth nmin nmax n _ _ H1 H2 (blk_h n m ltac:(lia))). f_equal. unfold h_position. nia.
Qed.

(** ** Failures *)
(** a scalar time, although documented, destroys the file and raises *)
Lemma C48_scalar now fs t coeffs order path nmin nmax lp header :
  (nmin_arg nmin <= nmax_arg (c_cols coeffs) nmax)%Z -> (0 <= nmin_arg nmin)%Z ->
  save_shcfile now fs (TScalar t) coeffs order (Some path) nmin nmax lp header =
  (write_file fs path (comment_text match header with None => [] | Some h => h end now match lp with None => true | Some b => b end
     (nmin_arg nmin) (nmax_arg (c_cols coeffs) nmax) 1 match order with None => 1%Z | Some o => o end ++ txt "  ")%list, Err TypeError).
Proof.
  intros H1 H2. unfold save_shcfile. fold (nmin_arg nmin). fold (nmax_arg (c_cols coeffs) nmax).
  destruct (Z.ltb_spec (nmax_arg (c_cols coeffs) nmax) (nmin_arg nmin)); [lia|]. destruct (Z.ltb_spec (nmin_arg nmin) 0); [lia|].
  unfold write_shc. rewrite !emit_ok. cbn [raise_]. rewrite emit_err.
  set (g := fun '(row, w) '(n, m) => _).
  assert (SG : forall D k o e, snd (fold_left g D (k, (o, Some e))) = (o, Some e)).
  { clear. induction D as [|[n m] D IH]; intros k o e; [reflexivity|]. cbn [fold_left]. unfold g at 2.
    rewrite emit_err. destruct (_ <? _)%nat; [rewrite !emit_err|cbn [raise_]; rewrite emit_err]; apply IH. }
  rewrite SG. reflexivity.
Qed.

(** errors found before the file is opened leave every file alone *)
Lemma C48_early now fs time coeffs order path nmin nmax lp header :
  (nmax_arg (c_cols coeffs) nmax < nmin_arg nmin)%Z \/ (nmin_arg nmin < 0)%Z ->
  save_shcfile now fs time coeffs order path nmin nmax lp header = (fs, Err ValueError).
Proof.
  intros H. unfold save_shcfile. fold (nmin_arg nmin). fold (nmax_arg (c_cols coeffs) nmax).
  destruct (Z.ltb_spec (nmax_arg (c_cols coeffs) nmax) (nmin_arg nmin)); [reflexivity|]. destruct (Z.ltb_spec (nmin_arg nmin) 0); [reflexivity|]. lia.
Qed.
(** other files are never touched *)
Lemma C48_other now fs time coeffs order path nmin nmax lp header p :
  p <> match path with None => "model.shc"%string | Some q => q end ->
  fst (save_shcfile now fs time coeffs order path nmin nmax lp header) p = fs p.
Proof.
  intros H. unfold save_shcfile. destruct (_ <? _)%Z; [reflexivity|]. destruct (_ <? _)%Z; [reflexivity|].
  destruct (write_shc _ _ _ _ _ _ _ _ _) as [t e]. cbn [fst]. unfold write_file. destruct (String.eqb_spec p match path with None => "model.shc"%string | Some q => q end); [contradiction|reflexivity].
Qed.
