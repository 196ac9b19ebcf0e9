(** Proofs of the spectrum properties. *)
From Coq Require Import Reals List Arith ZArith String Bool Lia Lra.
From Verif Require Import M_Prelude M_ND P_ND Spec_Field M_Spectrum P_Spectrum.
Import ListNotations.
Open Scope R_scope.

Lemma elems_vec0 (l : list R) : elems (vec 0 l) = l.
Proof.
  unfold elems, vec. cbn [sh at_ indices].
  transitivity (map (fun k => nth k l 0) (seq 0 (List.length l))).
  - generalize (seq 0 (List.length l)). intros k. induction k as [|x k IH]; [reflexivity|]. cbn [flat_map map app]. f_equal. exact IH.
  - apply (nth_ext _ _ 0 0); [rewrite map_length, seq_length; reflexivity|].
    intros i Hi. rewrite map_length, seq_length in Hi.
    rewrite (nth_indep (map _ _) 0 ((fun j => nth j l 0) 0%nat)) by (rewrite map_length, seq_length; lia).
    rewrite (map_nth (fun j => nth j l 0) (seq 0 (List.length l)) 0%nat i), seq_nth by lia. reflexivity.
Qed.

Lemma along_vec l x : along (vec 0 l) 0 [x] = l.
Proof.
  unfold along, vec. cbn [sh at_ nth]. unfold set_axis. cbn [firstn skipn app].
  rewrite <- (elems_vec0 l) at 2. unfold elems, vec. cbn [sh at_ indices].
  generalize (seq 0 (List.length l)). intros k. induction k as [|y k IH]; [reflexivity|]. cbn [flat_map map app]. f_equal. exact IH.
Qed.

Lemma along_length c ax x : List.length (along c ax x) = nth ax (sh c) 0%nat.
Proof. unfold along. rewrite map_length, seq_length. reflexivity. Qed.

Lemma ps_at a c radius nmax source axis W : power_spectrum a c radius nmax source axis = Ok W ->
  exists ax f K, norm_axis (List.length (sh c)) (match axis with None => (-1)%Z | Some z => z end) = Ok ax /\
    factor (match source with None => "internal" | Some s => s end)%string = Ok f /\
    sh W = set_axis (sh c) ax K /\
    Z.of_nat K = match nmax with None => degree_of_size (nth ax (sh c) 0%nat)
                 | Some n => Z.min n (degree_of_size (nth ax (sh c) 0%nat)) end /\
    forall x, (nth ax x 0 < K)%nat ->
      let n := (nth ax x 0 + 1)%nat in
      at_ W x = f n (match radius with None => 1 | Some rad => a / rad end) * degree_power (along c ax x) n.
Proof.
  unfold power_spectrum. destruct (norm_axis _ _) as [ax|]; [|discriminate]. cbn [bind].
  destruct (factor _) as [f|]; [|discriminate]. cbn [bind].
  set (N := degree_of_size _). set (K := match nmax with None => _ | _ => _ end).
  destruct (Z.ltb_spec K 0) as [L|L]; [discriminate|]. intros E. injection E as <-.
  exists ax, f, (Z.to_nat K). split; [reflexivity|]. split; [reflexivity|]. split; [reflexivity|].
  assert (EK : K = match nmax with None => N | Some n => Z.min n N end).
  { unfold K. destruct nmax as [z|]; [|reflexivity]. destruct (Z.ltb_spec N z); lia. }
  split; [rewrite Z2Nat.id by exact L; exact EK|].
  intros x Hx. cbn zeta. cbn [at_]. f_equal. apply sum_sq; [lia|]. rewrite along_length.
  destruct (degree_bound (nth ax (sh c) 0%nat)) as [_ B]. fold N in B.
  destruct (B (nth ax x 0 + 1)%nat) as [B1|B1]; [|exact B1|lia].
  assert (K <= N)%Z by (rewrite EK; destruct nmax; lia). lia.
Qed.

(** number of coefficients of a complete expansion *)
Lemma degree_of_full N : degree_of_size (N * (N + 2)) = Z.of_nat N.
Proof.
  unfold degree_of_size. replace (Z.of_nat (N * (N + 2)) + 1)%Z with ((Z.of_nat N + 1) * (Z.of_nat N + 1))%Z by nia.
  rewrite Z.sqrt_square by lia. lia.
Qed.

Definition spec_factor (name : string) (a r : R) (n : nat) : R :=
  if (name =? "internal")%string then INR (n + 1) * (a / r) ^ (2 * n + 4)
  else if (name =? "external")%string then INR n * (r / a) ^ (2 * n - 2)
  else INR (n * (n + 1)) / INR (2 * n + 1).

Lemma factor_spec a r name f : 0 < a -> 0 < r -> factor name = Ok f -> forall n, f n (a / r) = spec_factor name a r n.
Proof.
  intros Ha Hr E n. unfold factor in E. unfold spec_factor.
  destruct (name =? "internal")%string; [injection E as <-; reflexivity|].
  destruct (name =? "external")%string; [injection E as <-|destruct (name =? "toroidal")%string; [injection E as <-; reflexivity|discriminate]].
  f_equal. replace (r / a) with (/ (a / r)) by (field; lra). rewrite pow_inv. reflexivity.
Qed.

Lemma spec_factor_pos name a r n : 0 < a -> 0 < r -> (1 <= n)%nat -> 0 < spec_factor name a r n.
Proof.
  intros Ha Hr Hn. unfold spec_factor.
  assert (0 < a / r) by (apply Rdiv_lt_0_compat; assumption).
  assert (0 < r / a) by (apply Rdiv_lt_0_compat; assumption).
  destruct (name =? "internal")%string; [apply Rmult_lt_0_compat; [apply lt_0_INR; lia|apply pow_lt; assumption]|].
  destruct (name =? "external")%string; [apply Rmult_lt_0_compat; [apply lt_0_INR; lia|apply pow_lt; assumption]|].
  apply Rdiv_lt_0_compat; apply lt_0_INR; nia.
Qed.

Lemma C35_vec a l r name nmax W N : 0 < a -> 0 < r -> List.length l = (N * (N + 2))%nat ->
  power_spectrum a (vec 0 l) (Some r) nmax (Some name) None = Ok W ->
  exists K, sh W = [K] /\ Z.of_nat K = match nmax with None => Z.of_nat N | Some n => Z.min n (Z.of_nat N) end /\
  forall n, (1 <= n <= K)%nat -> at_ W [(n - 1)%nat] = spec_factor name a r n * degree_power l n.
Proof.
  intros Ha Hr L E. apply ps_at in E. destruct E as (ax & f & K & E1 & E2 & E3 & E4 & E5).
  cbn in E1. injection E1 as <-. change (nth _ (sh (vec 0 l)) 0%nat) with (List.length l) in E4.
  exists K. split; [exact E3|]. rewrite L, degree_of_full in E4. split; [exact E4|].
  intros n Hn. specialize (E5 [(n - 1)%nat]). cbn in E5. rewrite E5 by lia.
  replace (n - 1 + 1)%nat with n by lia. fold (along (vec 0 l) 0 [(n-1)%nat]) in *.
  change (map _ (seq 0 (List.length l))) with (along (vec 0 l) 0 [(n-1)%nat]).
  rewrite along_vec. rewrite (factor_spec a r name f Ha Hr E2). reflexivity.
Qed.

Lemma C35_success a l r name nmax N : List.length l = (N * (N + 2))%nat ->
  name = "internal"%string \/ name = "external"%string \/ name = "toroidal"%string ->
  match nmax with None => True | Some n => (0 <= n)%Z end ->
  exists W, power_spectrum a (vec 0 l) (Some r) nmax (Some name) None = Ok W.
Proof.
  intros L Hn Hm. unfold power_spectrum.
  assert (F : exists f, factor name = Ok f) by (destruct Hn as [ -> | [ -> | -> ] ]; eexists; reflexivity).
  destruct F as (f & F). rewrite F.
  change (norm_axis (List.length (sh (vec 0 l))) (-1)) with (@Ok nat 0%nat). cbn [bind].
  change (nth 0 (sh (vec 0 l)) 0%nat) with (List.length l). rewrite L, degree_of_full.
  destruct nmax as [z|]; [|destruct (Z.ltb_spec (Z.of_nat N) 0); [lia|eexists; reflexivity]].
  destruct (Z.ltb_spec (Z.of_nat N) z).
  - destruct (Z.ltb_spec (Z.of_nat N) 0); [lia|eexists; reflexivity].
  - destruct (Z.ltb_spec z 0); [lia|eexists; reflexivity].
Qed.

Lemma C35_unknown a c radius nmax name axis : name <> "internal"%string -> name <> "external"%string -> name <> "toroidal"%string ->
  is_err (power_spectrum a c radius nmax (Some name) axis).
Proof.
  intros H1 H2 H3. unfold power_spectrum. destruct (norm_axis _ _); [|eexists; reflexivity]. cbn [bind]. unfold factor.
  destruct (String.eqb_spec name "internal"); [contradiction|]. destruct (String.eqb_spec name "external"); [contradiction|].
  destruct (String.eqb_spec name "toroidal"); [contradiction|]. eexists; reflexivity.
Qed.

(** Along an axis: every fibre by itself. *)
Lemma C35_axis a c radius nmax source j W x : (j < List.length (sh c))%nat ->
  power_spectrum a c radius nmax source (Some (Z.of_nat j)) = Ok W -> List.length x = List.length (sh c) -> 
  (nth j x 0 < nth j (sh W) 0)%nat ->
  exists W', power_spectrum a (vec 0 (along c j x)) radius nmax source None = Ok W' /\
    at_ W x = at_ W' [nth j x 0%nat].
Proof.
  intros Hj E Lx Hx. pose proof E as E0. apply ps_at in E. destruct E as (ax & f & K & E1 & E2 & E3 & E4 & E5).
  unfold norm_axis in E1. destruct (_ && _)%bool; [|discriminate].
  destruct (Z.ltb_spec (Z.of_nat j) 0); [lia|]. rewrite Nat2Z.id in E1. injection E1 as <-.
  assert (NK : nth j (sh W) 0%nat = K).
  { rewrite E3. unfold set_axis. rewrite app_nth2; rewrite firstn_length; [|lia]. replace (j - _)%nat with 0%nat by lia. reflexivity. }
  rewrite NK in Hx. specialize (E5 x Hx). cbn zeta in E5.
  assert (X : exists W', power_spectrum a (vec 0 (along c j x)) radius nmax source None = Ok W').
  { unfold power_spectrum. cbn [sh vec List.length]. change (norm_axis 1 (-1)) with (@Ok nat 0%nat). cbn [bind].
    rewrite E2. cbn [bind nth]. rewrite along_length.
    match goal with |- context [(?k <? 0)%Z] => destruct (Z.ltb_spec k 0) as [Q|Q] end; [|eexists; reflexivity].
    exfalso. pose proof (degree_bound (nth j (sh c) 0%nat)) as [B _].
    destruct nmax as [z|]; [destruct (Z.ltb_spec (degree_of_size (nth j (sh c) 0%nat)) z)|]; lia. }
  destruct X as (W' & EW'). exists W'. split; [exact EW'|].
  apply ps_at in EW'. destruct EW' as (ax' & f' & K' & F1 & F2 & F3 & F4 & F5).
  cbn in F1. injection F1 as <-. rewrite E2 in F2. injection F2 as <-.
  change (nth _ (sh (vec 0 (along c j x))) 0%nat) with (List.length (along c j x)) in F4. rewrite along_length in F4.
  assert (K' = K) by lia. subst K'. specialize (F5 [nth j x 0%nat]). cbn [nth] in F5. rewrite F5 by exact Hx.
  cbn zeta. rewrite along_vec. exact E5.
Qed.

Lemma C35_neg_axis a c radius nmax source j : (j < List.length (sh c))%nat ->
  power_spectrum a c radius nmax source (Some (Z.of_nat j - Z.of_nat (List.length (sh c)))%Z) =
  power_spectrum a c radius nmax source (Some (Z.of_nat j)).
Proof.
  intros Hj. unfold power_spectrum.
  assert (E : norm_axis (List.length (sh c)) (Z.of_nat j - Z.of_nat (List.length (sh c))) = norm_axis (List.length (sh c)) (Z.of_nat j)).
  { unfold norm_axis. destruct (Z.leb_spec (- Z.of_nat (List.length (sh c))) (Z.of_nat j - Z.of_nat (List.length (sh c)))); [|lia].
    destruct (Z.leb_spec (- Z.of_nat (List.length (sh c))) (Z.of_nat j)); [|lia].
    destruct (Z.ltb_spec (Z.of_nat j - Z.of_nat (List.length (sh c))) (Z.of_nat (List.length (sh c)))); [|lia].
    destruct (Z.ltb_spec (Z.of_nat j) (Z.of_nat (List.length (sh c)))); [|lia].
    destruct (Z.ltb_spec (Z.of_nat j - Z.of_nat (List.length (sh c))) 0); [|lia].
    destruct (Z.ltb_spec (Z.of_nat j) 0); [lia|]. cbn [andb]. f_equal. lia. }
  rewrite E. reflexivity.
Qed.

(** ** C37 *)
Lemma corr_at l1 l2 : List.length l1 = List.length l2 ->
  degree_correlation (vec 0 l1) (vec 0 l2) =
  Ok (map (fun n => ediv (degree_product l1 l2 n) (sqrt (degree_power l1 n * degree_power l2 n)))
          (seq 1 (Z.to_nat (degree_of_size (List.length l1))))).
Proof.
  intros L. unfold degree_correlation, vector_of. cbn [sh vec List.length Nat.eqb bind]. rewrite !elems_vec0.
  rewrite L, Nat.eqb_refl. cbn [negb]. f_equal. apply map_ext_in. intros n Hn. apply in_seq in Hn.
  destruct (degree_bound (List.length l2)) as [B0 B].
  destruct (B n) as [B1|B1]; [lia| |lia].
  cbn zeta. rewrite sum_prod, !sum_sq by lia. reflexivity.
Qed.

Lemma corr_nth l1 l2 N n v : List.length l1 = (N * (N + 2))%nat -> List.length l2 = (N * (N + 2))%nat -> (1 <= n <= N)%nat ->
  degree_correlation (vec 0 l1) (vec 0 l2) = Ok v ->
  List.length v = N /\ nth (n - 1) v NaN = ediv (degree_product l1 l2 n) (sqrt (degree_power l1 n * degree_power l2 n)).
Proof.
  intros L1 L2 Hn E. rewrite corr_at in E by congruence. rewrite L1, degree_of_full, Nat2Z.id in E. injection E as <-.
  rewrite map_length, seq_length. split; [reflexivity|].
  rewrite (nth_indep _ NaN ((fun n => ediv (degree_product l1 l2 n) (sqrt (degree_power l1 n * degree_power l2 n))) 0%nat))
    by (rewrite map_length, seq_length; lia).
  rewrite (map_nth (fun n => ediv (degree_product l1 l2 n) (sqrt (degree_power l1 n * degree_power l2 n)))), seq_nth by lia.
  replace (1 + (n - 1))%nat with n by lia. reflexivity.
Qed.

Lemma power_pos l n : ~ degree_vanishes l n -> 0 < degree_power l n.
Proof.
  intros H. pose proof (degree_power_nonneg l n). destruct (Req_dec (degree_power l n) 0) as [E|E]; [|lra].
  exfalso. apply H, degree_power_zero, E.
Qed.

Lemma corr_value l1 l2 n : (1 <= n)%nat -> ~ degree_vanishes l1 n -> ~ degree_vanishes l2 n ->
  exists c, ediv (degree_product l1 l2 n) (sqrt (degree_power l1 n * degree_power l2 n)) = Fin c /\
    c = degree_product l1 l2 n / (sqrt (degree_power l1 n) * sqrt (degree_power l2 n)) /\ -1 <= c <= 1.
Proof.
  intros Hn V1 V2. apply power_pos in V1, V2.
  assert (P : 0 < degree_power l1 n * degree_power l2 n) by (apply Rmult_lt_0_compat; assumption).
  pose proof (sqrt_lt_R0 _ P) as Q. unfold ediv. destruct (Req_EM_T _ 0); [lra|]. eexists. split; [reflexivity|].
  split; [rewrite sqrt_mult by lra; reflexivity|].
  pose proof (cauchy_schwarz (fun i => nth i l1 0) (fun i => nth i l2 0) (blk_idx n)) as CS. cbv beta in CS.
  rewrite <- degree_product_blk, <- !degree_power_blk in CS by exact Hn.
  set (S := sqrt _) in *. set (p := degree_product l1 l2 n) in *.
  assert (S2 : S ^ 2 = degree_power l1 n * degree_power l2 n) by (unfold S; apply pow2_sqrt; lra).
  rewrite <- S2 in CS.
  assert (H : -S <= p <= S) by (split; nra).
  split.
  - apply (Rmult_le_reg_r S); [exact Q|]. replace (p / S * S) with p by (field; lra). lra.
  - apply (Rmult_le_reg_r S); [exact Q|]. replace (p / S * S) with p by (field; lra). lra.
Qed.

Lemma corr_nan l1 l2 n : degree_vanishes l1 n \/ degree_vanishes l2 n ->
  ediv (degree_product l1 l2 n) (sqrt (degree_power l1 n * degree_power l2 n)) = NaN.
Proof.
  intros H. rewrite (degree_product_zero _ _ _ H).
  assert (E : degree_power l1 n * degree_power l2 n = 0).
  { destruct H as [H|H]; apply degree_power_zero in H; rewrite H; ring. }
  rewrite E, sqrt_0. unfold ediv. destruct (Req_EM_T 0 0); [reflexivity|lra].
Qed.

(** ** C38 *)
Definition deg_of (i : nat) : nat := Z.to_nat (Z.sqrt (Z.of_nat i + 1)).
Lemma deg_of_block n i : (1 <= n)%nat -> (n ^ 2 - 1 <= i < n ^ 2 - 1 + (2 * n + 1))%nat <-> deg_of i = n.
Proof.
  intros H. unfold deg_of. rewrite Nat.pow_2_r. split.
  - intros B. rewrite (Z.sqrt_unique (Z.of_nat i + 1) (Z.of_nat n)); [lia|]. nia.
  - intros E. assert (E' : Z.sqrt (Z.of_nat i + 1) = Z.of_nat n) by (pose proof (Z.sqrt_nonneg (Z.of_nat i + 1)); lia).
    pose proof (Z.sqrt_spec (Z.of_nat i + 1) ltac:(lia)) as Q. cbv zeta in Q. rewrite E' in Q.
    replace (Z.succ (Z.of_nat n) * Z.succ (Z.of_nat n))%Z with (Z.of_nat n * Z.of_nat n + 2 * Z.of_nat n + 1)%Z in Q by ring.
    assert (G : (1 <= n * n)%nat) by (clear - H; nia). clear - G Q.
    lia.
Qed.
Lemma deg_of_pos i : (1 <= deg_of i)%nat.
Proof. unfold deg_of. pose proof (Z.sqrt_le_mono 1 (Z.of_nat i + 1) ltac:(lia)) as X. change (Z.sqrt 1) with 1%Z in X. lia. Qed.

Lemma firstn_seq k a len : firstn k (seq a len) = seq a (Nat.min k len).
Proof.
  revert a len. induction k as [|k IH]; intros a len; [reflexivity|]. destruct len; [reflexivity|]. cbn. rewrite IH. reflexivity.
Qed.
Lemma skipn_seq k a len : skipn k (seq a len) = seq (a + k) (len - k).
Proof.
  revert a len. induction k as [|k IH]; intros a len; [rewrite Nat.add_0_r, Nat.sub_0_r; reflexivity|].
  destruct len; [reflexivity|]. cbn. rewrite IH. f_equal; lia.
Qed.

Lemma scale_slice_map mn mx s (f : nat -> ext) len : (mn <= mx <= len)%nat ->
  scale_slice mn mx s (map f (seq 0 len)) =
  map (fun i => if ((mn <=? i) && (i <? mx))%nat%bool then match f i with Fin x => emul x s | _ => NaN end else f i) (seq 0 len).
Proof.
  intros H. unfold scale_slice, slice. rewrite firstn_map, !skipn_map, firstn_map, firstn_seq, !skipn_seq, firstn_seq, map_map.
  rewrite Nat.min_l by lia. rewrite Nat.min_l by lia. cbn [Nat.add].
  replace (seq 0 len) with (seq 0 mn ++ seq mn (mx - mn) ++ seq mx (len - mx)) at 1.
  2:{ replace mx with (mn + (mx - mn))%nat at 2 by lia. rewrite <- seq_app. 
      change (seq mn (mx - mn + (len - mx))) with (seq (0 + mn) (mx - mn + (len - mx))). rewrite <- seq_app. f_equal. lia. }
  rewrite !map_app. f_equal; [|f_equal]; apply map_ext_in; intros i Hi; apply in_seq in Hi.
  - destruct (Nat.leb_spec mn i); [lia|reflexivity].
  - destruct (Nat.leb_spec mn i); [|lia]. destruct (Nat.ltb_spec i mx); [reflexivity|lia].
  - destruct (Nat.leb_spec mn i); [|lia]. destruct (Nat.ltb_spec i mx); [lia|reflexivity].
Qed.

Lemma sens_loop (sc : nat -> ext) (d : nat -> R) len : forall K, (Z.of_nat K <= degree_of_size len)%Z ->
  fold_left (fun S n => scale_slice (n ^ 2 - 1) (n ^ 2 - 1 + (2 * n + 1)) (sc n) S) (seq 1 K) (map (fun i => Fin (d i)) (seq 0 len)) =
  map (fun i => if (deg_of i <=? K)%nat then emul (d i) (sc (deg_of i)) else Fin (d i)) (seq 0 len).
Proof.
  destruct (degree_bound len) as [_ B].
  induction K as [|K IH]; intros H.
  - cbn. apply map_ext. intros i. pose proof (deg_of_pos i). destruct (deg_of i); [lia|reflexivity].
  - rewrite seq_S, fold_left_app, IH by lia. cbn [fold_left]. destruct (B (1 + K)%nat) as [B1|B1]; [lia| |lia].
    rewrite scale_slice_map by lia. apply map_ext_in. intros i _. pose proof (deg_of_block (1 + K) i) as D.
    destruct (Nat.leb_spec ((1 + K) ^ 2 - 1) i) as [X|X]; cbn [andb].
    + destruct (Nat.ltb_spec i ((1 + K) ^ 2 - 1 + (2 * (1 + K) + 1))) as [Y|Y].
      * assert (E : deg_of i = (1 + K)%nat) by (apply D; lia). rewrite E.
        destruct (Nat.leb_spec (1 + K) K); [lia|]. destruct (Nat.leb_spec (1 + K) (S K)); [reflexivity|lia].
      * assert (E : deg_of i <> (1 + K)%nat) by (intros E; apply D in E; lia).
        destruct (Nat.leb_spec (deg_of i) K), (Nat.leb_spec (deg_of i) (S K)); try reflexivity; lia.
    + assert (E : deg_of i <> (1 + K)%nat) by (intros E; apply D in E; lia).
      destruct (Nat.leb_spec (deg_of i) K), (Nat.leb_spec (deg_of i) (S K)); try reflexivity; lia.
Qed.

Definition sens_scale (l2 : list R) (n : nat) : ext := ediv 1 (sqrt (degree_power l2 n / INR (2 * n + 1))).

Lemma sens_at l1 l2 N : List.length l1 = (N * (N + 2))%nat -> List.length l2 = (N * (N + 2))%nat ->
  sensitivity (vec 0 l1) (vec 0 l2) =
  Ok (map (fun i => emul (nth i l1 0 - nth i l2 0) (sens_scale l2 (deg_of i))) (seq 0 (N * (N + 2)))).
Proof.
  intros L1 L2. unfold sensitivity, vector_of. cbn [sh vec List.length Nat.eqb bind]. rewrite !elems_vec0.
  rewrite L1, L2, Nat.eqb_refl. cbn [negb]. f_equal. rewrite degree_of_full, Nat2Z.id.
  assert (E0 : map (fun p => Fin (fst p - snd p)) (combine l1 l2) = map (fun i => Fin (nth i l1 0 - nth i l2 0)) (seq 0 (N * (N + 2)))).
  { apply (nth_ext _ _ NaN NaN).
    - rewrite !map_length, combine_length, seq_length. lia.
    - intros i Hi. rewrite map_length, combine_length in Hi.
      rewrite (nth_indep (map _ (combine l1 l2)) NaN ((fun p => Fin (fst p - snd p)) (0, 0))) by (rewrite map_length, combine_length; lia).
      rewrite (map_nth (fun p => Fin (fst p - snd p))), combine_nth by congruence.
      rewrite (nth_indep (map _ (seq 0 _)) NaN ((fun i => Fin (nth i l1 0 - nth i l2 0)) 0%nat)) by (rewrite map_length, seq_length; lia).
      rewrite (map_nth (fun i => Fin (nth i l1 0 - nth i l2 0))), seq_nth by lia. reflexivity. }
  rewrite E0.
  transitivity (fold_left (fun S n => scale_slice (n ^ 2 - 1) (n ^ 2 - 1 + (2 * n + 1)) (sens_scale l2 n) S) (seq 1 N)
    (map (fun i => Fin (nth i l1 0 - nth i l2 0)) (seq 0 (N * (N + 2))))).
  - assert (G : forall k S, (forall n, In n k -> 1 <= n <= N)%nat ->
      fold_left (fun S n => scale_slice (n ^ 2 - 1) (n ^ 2 - 1 + (2 * n + 1))
        (ediv 1 (sqrt (npsum (map sq (slice (n ^ 2 - 1) (n ^ 2 - 1 + (2 * n + 1)) l2)) / INR (2 * n + 1)))) S) k S =
      fold_left (fun S n => scale_slice (n ^ 2 - 1) (n ^ 2 - 1 + (2 * n + 1)) (sens_scale l2 n) S) k S).
    { induction k as [|n k IH]; intros S Hk; [reflexivity|]. cbn [fold_left].
      assert (1 <= n <= N)%nat by (apply Hk; left; reflexivity).
      rewrite sum_sq by (try rewrite L2; cbn [Nat.pow]; nia). apply IH. intros m Hm. apply Hk. right. exact Hm. }
    apply G. intros n Hn. apply in_seq in Hn. lia.
  - rewrite (sens_loop (sens_scale l2)) by (rewrite degree_of_full; lia). apply map_ext_in. intros i Hi. apply in_seq in Hi.
    destruct (Nat.leb_spec (deg_of i) N) as [X|X]; [reflexivity|].
    exfalso. pose proof (deg_of_block (deg_of i) i (deg_of_pos i)) as D. destruct D as [_ D]. specialize (D eq_refl).
    cbn [Nat.pow] in D. nia.
Qed.

Lemma sens_nth l1 l2 N v i : List.length l1 = (N * (N + 2))%nat -> List.length l2 = (N * (N + 2))%nat -> (i < N * (N + 2))%nat ->
  sensitivity (vec 0 l1) (vec 0 l2) = Ok v ->
  List.length v = (N * (N + 2))%nat /\ nth i v NaN = emul (nth i l1 0 - nth i l2 0) (sens_scale l2 (deg_of i)).
Proof.
  intros L1 L2 Hi E. rewrite (sens_at _ _ N L1 L2) in E. injection E as <-. rewrite map_length, seq_length. split; [reflexivity|].
  set (F := fun i => emul _ _). rewrite (nth_indep _ NaN (F 0%nat)) by (rewrite map_length, seq_length; lia).
  rewrite map_nth, seq_nth by lia. reflexivity.
Qed.

Lemma sens_scale_pos l2 n : (1 <= n)%nat -> ~ degree_vanishes l2 n ->
  sens_scale l2 n = Fin (1 / sqrt (degree_power l2 n / INR (2 * n + 1))).
Proof.
  intros Hn V. apply power_pos in V. unfold sens_scale, ediv.
  assert (P : 0 < degree_power l2 n / INR (2 * n + 1)) by (apply Rdiv_lt_0_compat; [exact V|apply lt_0_INR; lia]).
  pose proof (sqrt_lt_R0 _ P). destruct (Req_EM_T _ 0); [lra|reflexivity].
Qed.
