(** More proofs of the spectrum properties. *)
From Coq Require Import Reals List Arith ZArith String Bool Lia Lra Sorted.
From Verif Require Import M_Prelude M_ND P_ND Spec_Field M_Spectrum P_Spectrum P_Spectrum2.
Import ListNotations.
Open Scope R_scope.

(** ** C34 *)
Lemma C34_shape {A} (b : list A) k d : b <> [] ->
  exists t, augment_breaks b (Z.of_nat (S k)) = Ok t /\
    t = repeat (hd d b) k ++ b ++ repeat (last b d) k /\ List.length t = (List.length b + 2 * S k - 2)%nat.
Proof.
  destruct b as [|x b]; [contradiction|]. intros _. unfold augment_breaks.
  replace (Z.to_nat (Z.of_nat (S k) - 1)) with k by lia. eexists. split; [reflexivity|]. split.
  - cbn [hd]. do 3 f_equal. 
    assert (G : forall (l : list A) y d1 d2, last (y :: l) d1 = last (y :: l) d2).
    { induction l as [|z l IH]; intros y d1 d2; [reflexivity|]. change (last (z :: l) d1 = last (z :: l) d2). apply IH. }
    apply G.
  - rewrite !app_length, !repeat_length. lia.
Qed.

Lemma last_In {A} (l : list A) d : l <> [] -> In (last l d) l.
Proof.
  induction l as [|x l IH]; [contradiction|]. intros _. destruct l as [|y l]; [left; reflexivity|].
  right. apply IH. discriminate.
Qed.
Lemma sorted_last (l : list R) d : StronglySorted Rle l -> forall x, In x l -> x <= last l d.
Proof.
  induction l as [|y l IH]; intros S x Hx; [destruct Hx|]. inversion S as [|? ? S1 S2]; subst.
  destruct l as [|z l]; [destruct Hx as [->|[]]; cbn; lra|].
  change (x <= last (z :: l) d). destruct Hx as [->|Hx]; [|apply IH; assumption].
  rewrite Forall_forall in S2. apply S2, last_In. discriminate.
Qed.
Lemma sorted_app (l l' : list R) : StronglySorted Rle l -> StronglySorted Rle l' ->
  (forall x y, In x l -> In y l' -> x <= y) -> StronglySorted Rle (l ++ l').
Proof.
  induction l as [|x l IH]; intros S S' H; [exact S'|]. inversion S as [|? ? S1 S2]; subst.
  cbn. constructor.
  - apply IH; [assumption..|]. intros; apply H; [right|]; assumption.
  - apply Forall_app. split; [exact S2|]. rewrite Forall_forall. intros y Hy. apply H; [left; reflexivity|exact Hy].
Qed.
Lemma sorted_repeat x k : StronglySorted Rle (repeat x k).
Proof.
  induction k as [|k IH]; cbn; constructor; [exact IH|]. rewrite Forall_forall. intros y Hy. apply repeat_spec in Hy. lra.
Qed.
Lemma C34_sorted (b : list R) k t : StronglySorted Rle b -> augment_breaks b k = Ok t -> StronglySorted Rle t.
Proof.
  destruct b as [|x b]; [discriminate|]. intros S E. unfold augment_breaks in E. injection E as <-.
  pose proof (sorted_last (x :: b) x S) as L.
  assert (F : forall y, In y (x :: b) -> x <= y).
  { intros y [ -> |Hy]; [lra|]. inversion S as [|? ? S1 S2]; subst. rewrite Forall_forall in S2. apply S2, Hy. }
  apply sorted_app; [apply sorted_repeat| |].
  - change (x :: b ++ ?r) with ((x :: b) ++ r). apply sorted_app; [exact S|apply sorted_repeat|].
    intros y z Hy Hz. apply repeat_spec in Hz. subst z. apply L, Hy.
  - intros y z Hy Hz. apply repeat_spec in Hy. subst y.
    change (In z ((x :: b) ++ repeat (last (x :: b) x) (Z.to_nat (k - 1)))) in Hz. apply in_app_or in Hz. destruct Hz as [Hz|Hz]; [apply F, Hz|].
    apply repeat_spec in Hz. subst z. apply F, last_In. discriminate.
Qed.

(** ** C35 *)
Lemma C35_internal a l r nmax W N : 0 < a -> 0 < r -> List.length l = (N * (N + 2))%nat ->
  power_spectrum a (vec 0 l) (Some r) nmax (Some "internal"%string) None = Ok W ->
  exists K, sh W = [K] /\ Z.of_nat K = match nmax with None => Z.of_nat N | Some n => Z.min n (Z.of_nat N) end /\
  forall n, (1 <= n <= K)%nat -> at_ W [(n - 1)%nat] = INR (n + 1) * (a / r) ^ (2 * n + 4) * degree_power l n.
Proof. exact (C35_vec a l r "internal" nmax W N). Qed.
Lemma C35_external a l r nmax W N : 0 < a -> 0 < r -> List.length l = (N * (N + 2))%nat ->
  power_spectrum a (vec 0 l) (Some r) nmax (Some "external"%string) None = Ok W ->
  exists K, sh W = [K] /\ Z.of_nat K = match nmax with None => Z.of_nat N | Some n => Z.min n (Z.of_nat N) end /\
  forall n, (1 <= n <= K)%nat -> at_ W [(n - 1)%nat] = INR n * (r / a) ^ (2 * n - 2) * degree_power l n.
Proof. exact (C35_vec a l r "external" nmax W N). Qed.
Lemma C35_toroidal a l r nmax W N : 0 < a -> 0 < r -> List.length l = (N * (N + 2))%nat ->
  power_spectrum a (vec 0 l) (Some r) nmax (Some "toroidal"%string) None = Ok W ->
  exists K, sh W = [K] /\ Z.of_nat K = match nmax with None => Z.of_nat N | Some n => Z.min n (Z.of_nat N) end /\
  forall n, (1 <= n <= K)%nat -> at_ W [(n - 1)%nat] = INR (n * (n + 1)) / INR (2 * n + 1) * degree_power l n.
Proof. exact (C35_vec a l r "toroidal" nmax W N). Qed.

Lemma C35_default_radius a c nmax source axis : 0 < a ->
  power_spectrum a c None nmax source axis = power_spectrum a c (Some a) nmax source axis.
Proof. intros Ha. unfold power_spectrum. replace (a / a) with 1 by (field; lra). reflexivity. Qed.
Lemma C35_default_source a c radius nmax axis :
  power_spectrum a c radius nmax None axis = power_spectrum a c radius nmax (Some "internal"%string) axis.
Proof. reflexivity. Qed.

Lemma C35_fibre a c radius nmax source j W x : (j < List.length (sh c))%nat ->
  power_spectrum a c radius nmax source (Some (Z.of_nat j)) = Ok W -> List.length x = List.length (sh c) ->
  (nth j x 0 < nth j (sh W) 0)%nat ->
  (forall i, i <> j -> nth i (sh W) 0%nat = nth i (sh c) 0%nat) /\
  exists W', power_spectrum a (vec 0 (map (fun k => at_ c (firstn j x ++ k :: skipn (S j) x)) (seq 0 (nth j (sh c) 0%nat))))
               radius nmax source None = Ok W' /\
    at_ W x = at_ W' [nth j x 0%nat].
Proof.
  intros Hj E Lx Hx. split; [|exact (C35_axis a c radius nmax source j W x Hj E Lx Hx)].
  apply ps_at in E. destruct E as (ax & f & K & E1 & _ & E3 & _).
  unfold norm_axis in E1. destruct (_ && _)%bool; [|discriminate].
  destruct (Z.ltb_spec (Z.of_nat j) 0); [lia|]. rewrite Nat2Z.id in E1. injection E1 as <-.
  intros i Hi. rewrite E3. unfold set_axis.
  destruct (Nat.ltb_spec i j) as [L|L].
  - rewrite app_nth1 by (rewrite firstn_length; lia).
    rewrite <- (firstn_skipn j (sh c)) at 2. rewrite app_nth1 by (rewrite firstn_length; lia). reflexivity.
  - rewrite app_nth2 by (rewrite firstn_length; lia). rewrite firstn_length, Nat.min_l by lia.
    destruct (i - j)%nat as [|d] eqn:Ed; [lia|]. cbn [nth].
    rewrite <- (firstn_skipn (S j) (sh c)) at 2. rewrite app_nth2 by (rewrite firstn_length; lia).
    rewrite firstn_length, Nat.min_l by lia. f_equal. lia.
Qed.

(** ** C36 *)
Lemma C36_nonneg_zero a l r name nmax W N : 0 < a -> 0 < r -> List.length l = (N * (N + 2))%nat ->
  power_spectrum a (vec 0 l) (Some r) nmax (Some name) None = Ok W ->
  forall n, (1 <= n)%nat -> (n <= nth 0 (sh W) 0)%nat ->
    0 <= at_ W [(n - 1)%nat] /\ (at_ W [(n - 1)%nat] = 0 <-> degree_vanishes l n).
Proof.
  intros Ha Hr L E n H1 H2. destruct (C35_vec _ _ _ _ _ _ _ Ha Hr L E) as (K & E1 & _ & E3).
  rewrite E1 in H2. cbn in H2. rewrite E3 by lia. pose proof (spec_factor_pos name a r n Ha Hr H1) as F.
  pose proof (degree_power_nonneg l n) as P. split; [apply Rmult_le_pos; lra|].
  rewrite <- degree_power_zero. split; intros Z; [|rewrite Z; ring].
  apply Rmult_integral in Z. destruct Z; [lra|assumption].
Qed.

Lemma C36_scale a l r name nmax W W' N k : 0 < a -> 0 < r -> List.length l = (N * (N + 2))%nat ->
  power_spectrum a (vec 0 l) (Some r) nmax (Some name) None = Ok W ->
  power_spectrum a (vec 0 (map (Rmult k) l)) (Some r) nmax (Some name) None = Ok W' ->
  sh W' = sh W /\ forall n, (1 <= n)%nat -> (n <= nth 0 (sh W) 0)%nat -> at_ W' [(n - 1)%nat] = k ^ 2 * at_ W [(n - 1)%nat].
Proof.
  intros Ha Hr L E E'. destruct (C35_vec _ _ _ _ _ _ _ Ha Hr L E) as (K & E1 & E2 & E3).
  assert (L' : List.length (map (Rmult k) l) = (N * (N + 2))%nat) by (rewrite map_length; exact L).
  destruct (C35_vec _ _ _ _ _ _ _ Ha Hr L' E') as (K' & F1 & F2 & F3).
  assert (K' = K) by lia. subst K'. rewrite E1, F1. split; [reflexivity|].
  intros n H1 H2. cbn in H2. rewrite E3, F3, degree_power_scale by lia. ring.
Qed.

Lemma C36_local a l l' r name nmax W W' N n : 0 < a -> 0 < r ->
  List.length l = (N * (N + 2))%nat -> List.length l' = (N * (N + 2))%nat ->
  power_spectrum a (vec 0 l) (Some r) nmax (Some name) None = Ok W ->
  power_spectrum a (vec 0 l') (Some r) nmax (Some name) None = Ok W' ->
  (1 <= n)%nat -> (n <= nth 0 (sh W) 0)%nat ->
  (forall m, (m <= n)%nat -> nth (g_position n m) l 0 = nth (g_position n m) l' 0 /\
     (m <> O -> nth (h_position n m) l 0 = nth (h_position n m) l' 0)) ->
  at_ W [(n - 1)%nat] = at_ W' [(n - 1)%nat].
Proof.
  intros Ha Hr L L' E E' H1 H2 Q. destruct (C35_vec _ _ _ _ _ _ _ Ha Hr L E) as (K & E1 & E2 & E3).
  destruct (C35_vec _ _ _ _ _ _ _ Ha Hr L' E') as (K' & F1 & F2 & F3).
  assert (K' = K) by lia. subst K'. rewrite E1 in H2. cbn in H2. rewrite E3, F3 by lia. f_equal.
  unfold degree_power. apply Rsum_ext. intros m Hm. 
  assert (Hm' : (m <= n)%nat). { unfold range_incl in Hm. apply in_seq in Hm. lia. }
  destruct (Q m Hm') as [Q1 Q2]. rewrite Q1. destruct (Nat.eqb_spec m 0); [reflexivity|]. rewrite Q2 by assumption. reflexivity.
Qed.

Lemma C36_radius a l r r' nmax W W' N : 0 < a -> 0 < r -> 0 < r' -> List.length l = (N * (N + 2))%nat ->
  power_spectrum a (vec 0 l) (Some r) nmax (Some "internal"%string) None = Ok W ->
  power_spectrum a (vec 0 l) (Some r') nmax (Some "internal"%string) None = Ok W' ->
  forall n, (1 <= n)%nat -> (n <= nth 0 (sh W) 0)%nat -> at_ W' [(n - 1)%nat] = (r / r') ^ (2 * n + 4) * at_ W [(n - 1)%nat].
Proof.
  intros Ha Hr Hr' L E E' n H1 H2. destruct (C35_internal _ _ _ _ _ _ Ha Hr L E) as (K & E1 & E2 & E3).
  destruct (C35_internal _ _ _ _ _ _ Ha Hr' L E') as (K' & F1 & F2 & F3).
  assert (K' = K) by lia. subst K'. rewrite E1 in H2. cbn in H2. rewrite E3, F3 by lia.
  replace (a / r') with ((r / r') * (a / r)) by (field; lra). rewrite Rpow_mult_distr. ring.
Qed.

(** ** C37 *)
Lemma corr_ok l1 l2 : List.length l1 = List.length l2 -> exists v, degree_correlation (vec 0 l1) (vec 0 l2) = Ok v.
Proof. intros L. rewrite corr_at by exact L. eexists; reflexivity. Qed.

Lemma C37_value l1 l2 N v n : List.length l1 = (N * (N + 2))%nat -> List.length l2 = (N * (N + 2))%nat ->
  degree_correlation (vec 0 l1) (vec 0 l2) = Ok v -> (1 <= n <= N)%nat ->
  List.length v = N /\
  ((degree_vanishes l1 n \/ degree_vanishes l2 n) /\ nth (n - 1) v NaN = NaN \/
   ~ degree_vanishes l1 n /\ ~ degree_vanishes l2 n /\
   exists c, nth (n - 1) v NaN = Fin c /\
     c = degree_product l1 l2 n / (sqrt (degree_power l1 n) * sqrt (degree_power l2 n)) /\ -1 <= c <= 1).
Proof.
  intros L1 L2 E Hn. destruct (corr_nth _ _ _ _ _ L1 L2 Hn E) as [LV V]. split; [exact LV|].
  assert (D : forall l, degree_vanishes l n \/ ~ degree_vanishes l n).
  { intros l. destruct (Req_dec (degree_power l n) 0) as [Z|Z]; [left|right]; rewrite <- degree_power_zero; exact Z. }
  destruct (D l1) as [D1|D1]; [left; split; [left; exact D1|rewrite V; apply corr_nan; left; exact D1]|].
  destruct (D l2) as [D2|D2]; [left; split; [right; exact D2|rewrite V; apply corr_nan; right; exact D2]|].
  right. split; [exact D1|]. split; [exact D2|]. destruct (corr_value l1 l2 n ltac:(lia) D1 D2) as (c & Q1 & Q2).
  exists c. split; [rewrite V; exact Q1|exact Q2].
Qed.

Lemma degree_product_comm l1 l2 n : degree_product l1 l2 n = degree_product l2 l1 n.
Proof. unfold degree_product. apply Rsum_ext. intros m _. destruct (Nat.eqb m 0); ring. Qed.
Lemma degree_product_self l n : degree_product l l n = degree_power l n.
Proof. unfold degree_product, degree_power. apply Rsum_ext. intros m _. destruct (Nat.eqb m 0); ring. Qed.

Lemma C37_sym l1 l2 : degree_correlation (vec 0 l1) (vec 0 l2) = degree_correlation (vec 0 l2) (vec 0 l1).
Proof.
  destruct (Nat.eq_dec (List.length l1) (List.length l2)) as [L|L].
  - rewrite (corr_at l1 l2 L), (corr_at l2 l1 (eq_sym L)), L. f_equal. apply map_ext. intros n.
    rewrite degree_product_comm, Rmult_comm. reflexivity.
  - unfold degree_correlation, vector_of. cbn [sh vec List.length Nat.eqb bind]. rewrite !elems_vec0.
    destruct (Nat.eqb_spec (List.length l1) (List.length l2)); [contradiction|].
    destruct (Nat.eqb_spec (List.length l2) (List.length l1)); [congruence|]. reflexivity.
Qed.

Lemma C37_self l N v n : List.length l = (N * (N + 2))%nat -> degree_correlation (vec 0 l) (vec 0 l) = Ok v ->
  (1 <= n <= N)%nat -> ~ degree_vanishes l n -> nth (n - 1) v NaN = Fin 1.
Proof.
  intros L E Hn V. destruct (C37_value _ _ _ _ _ L L E Hn) as [_ [[[X|X] _]|(_ & _ & c & Q1 & Q2 & _)]]; [contradiction..|].
  rewrite Q1. f_equal. rewrite Q2, degree_product_self. apply power_pos in V.
  rewrite sqrt_sqrt by lra. field. lra.
Qed.

Lemma C37_scale l1 l2 k : 0 < k ->
  degree_correlation (vec 0 (map (Rmult k) l1)) (vec 0 l2) = degree_correlation (vec 0 l1) (vec 0 l2).
Proof.
  intros Hk. destruct (Nat.eq_dec (List.length l1) (List.length l2)) as [L|L].
  - rewrite (corr_at l1 l2 L), corr_at by (rewrite map_length; exact L). rewrite map_length. f_equal. apply map_ext. intros n.
    rewrite degree_power_scale.
    replace (degree_product (map (Rmult k) l1) l2 n) with (k * degree_product l1 l2 n).
    2:{ rewrite <- (map_id l2) at 2. rewrite (map_ext (fun x => x) (Rmult 1)) by (intros; ring). rewrite degree_product_scale. ring. }
    pose proof (degree_power_nonneg l1 n) as P1. pose proof (degree_power_nonneg l2 n) as P2.
    replace (k ^ 2 * degree_power l1 n * degree_power l2 n) with (k ^ 2 * (degree_power l1 n * degree_power l2 n)) by ring.
    rewrite sqrt_mult by (first [apply pow2_ge_0 | apply Rmult_le_pos; assumption]). rewrite sqrt_pow2 by lra.
    set (p := degree_product l1 l2 n). set (s := sqrt _). unfold ediv.
    destruct (Req_EM_T (k * s) 0) as [Z|Z], (Req_EM_T s 0) as [Z'|Z'].
    + destruct (Req_EM_T (k * p) 0) as [Y|Y], (Req_EM_T p 0) as [Y'|Y']; try reflexivity.
      * exfalso. apply Y'. apply Rmult_integral in Y. destruct Y; [lra|assumption].
      * exfalso. apply Y. rewrite Y'. ring.
      * destruct (Rlt_dec 0 (k * p)), (Rlt_dec 0 p); try reflexivity; exfalso; nra.
    + exfalso. apply Z'. apply Rmult_integral in Z. destruct Z; [lra|assumption].
    + exfalso. apply Z. rewrite Z'. ring.
    + f_equal. field. split; [exact Z'|lra].
  - unfold degree_correlation, vector_of. cbn [sh vec List.length Nat.eqb bind]. rewrite !elems_vec0, map_length.
    destruct (Nat.eqb_spec (List.length l1) (List.length l2)); [contradiction|]. reflexivity.
Qed.

Lemma C37_errors c1 c2 : List.length (sh c1) <> 1%nat \/ List.length (sh c2) <> 1%nat ->
  degree_correlation c1 c2 = Err ValueError /\ sensitivity c1 c2 = Err ValueError.
Proof.
  intros H. unfold degree_correlation, sensitivity, vector_of.
  destruct (Nat.eqb_spec (List.length (sh c1)) 1); cbn [bind]; [|split; reflexivity].
  destruct (Nat.eqb_spec (List.length (sh c2)) 1); cbn [bind]; [|split; reflexivity].
  destruct H; contradiction.
Qed.
Lemma C37_mismatch l1 l2 : List.length l1 <> List.length l2 ->
  degree_correlation (vec 0 l1) (vec 0 l2) = Err ValueError /\ sensitivity (vec 0 l1) (vec 0 l2) = Err ValueError.
Proof.
  intros H. unfold degree_correlation, sensitivity, vector_of. cbn [sh vec List.length Nat.eqb bind]. rewrite !elems_vec0.
  destruct (Nat.eqb_spec (List.length l1) (List.length l2)); [contradiction|]. split; reflexivity.
Qed.

(** ** C38 *)
Definition in_degree (n i : nat) : Prop := exists m, (m <= n)%nat /\ (i = g_position n m \/ (m <> O /\ i = h_position n m)).
Lemma in_degree_deg n i : (1 <= n)%nat -> in_degree n i -> deg_of i = n.
Proof.
  intros Hn (m & Hm & [-> |[Hm0 -> ]]); apply deg_of_block; try exact Hn.
  - unfold g_position. destruct (Nat.eqb_spec m 0); cbn [Nat.pow]; nia.
  - unfold h_position. cbn [Nat.pow]. nia.
Qed.

Lemma C38_formula l1 l2 N v n i : List.length l1 = (N * (N + 2))%nat -> List.length l2 = (N * (N + 2))%nat ->
  sensitivity (vec 0 l1) (vec 0 l2) = Ok v -> (1 <= n <= N)%nat -> in_degree n i -> ~ degree_vanishes l2 n ->
  List.length v = (N * (N + 2))%nat /\
  nth i v NaN = Fin ((nth i l1 0 - nth i l2 0) / sqrt (degree_power l2 n / INR (2 * n + 1))).
Proof.
  intros L1 L2 E Hn Hi V. pose proof (in_degree_deg n i ltac:(lia) Hi) as D.
  assert (B : (i < N * (N + 2))%nat). { apply deg_of_block in D; [|lia]. rewrite Nat.pow_2_r in D. nia. }
  destruct (sens_nth _ _ _ _ _ L1 L2 B E) as [LV EV]. split; [exact LV|].
  rewrite EV, D, sens_scale_pos by (try exact V; lia). cbn [emul]. f_equal. field.
  assert (0 < sqrt (degree_power l2 n / INR (2 * n + 1))); [|lra]. apply sqrt_lt_R0, Rdiv_lt_0_compat; [apply power_pos, V|apply lt_0_INR; lia].
Qed.

Lemma C38_exists l1 l2 N : List.length l1 = (N * (N + 2))%nat -> List.length l2 = (N * (N + 2))%nat ->
  exists v, sensitivity (vec 0 l1) (vec 0 l2) = Ok v.
Proof. intros L1 L2. rewrite (sens_at _ _ _ L1 L2). eexists; reflexivity. Qed.

Lemma C38_scale l1 l2 N k : List.length l1 = (N * (N + 2))%nat -> List.length l2 = (N * (N + 2))%nat -> 0 < k ->
  sensitivity (vec 0 (map (Rmult k) l1)) (vec 0 (map (Rmult k) l2)) = sensitivity (vec 0 l1) (vec 0 l2).
Proof.
  intros L1 L2 Hk. rewrite (sens_at l1 l2 N L1 L2), (sens_at _ _ N) by (rewrite map_length; assumption).
  f_equal. apply map_ext. intros i. rewrite !nth_scale. set (n := deg_of i). unfold sens_scale. rewrite degree_power_scale.
  pose proof (deg_of_pos i). fold n in H. assert (I : 0 < INR (2 * n + 1)) by (apply lt_0_INR; lia).
  pose proof (degree_power_nonneg l2 n) as P.
  assert (P' : 0 <= degree_power l2 n / INR (2 * n + 1)) by (unfold Rdiv; apply Rmult_le_pos; [exact P|left; apply Rinv_0_lt_compat, I]).
  replace (k ^ 2 * degree_power l2 n / INR (2 * n + 1)) with (k ^ 2 * (degree_power l2 n / INR (2 * n + 1))) by (field; lra).
  rewrite sqrt_mult by (first [apply pow2_ge_0 | assumption]). rewrite sqrt_pow2 by lra.
  set (s := sqrt _). set (d := nth i l1 0 - nth i l2 0).
  replace (k * nth i l1 0 - k * nth i l2 0) with (k * d) by (unfold d; ring).
  unfold ediv. destruct (Req_EM_T (k * s) 0) as [Z|Z], (Req_EM_T s 0) as [Z'|Z'].
  - destruct (Req_EM_T 1 0); [lra|]. destruct (Rlt_dec 0 1); [|lra]. cbn [emul].
    destruct (Req_EM_T (k * d) 0) as [Y|Y], (Req_EM_T d 0) as [Y'|Y']; try reflexivity.
    + exfalso. apply Y'. apply Rmult_integral in Y. destruct Y; [lra|assumption].
    + exfalso. apply Y. rewrite Y'. ring.
    + destruct (Rlt_dec 0 (k * d)), (Rlt_dec 0 d); try reflexivity; exfalso; nra.
  - exfalso. apply Z'. apply Rmult_integral in Z. destruct Z; [lra|assumption].
  - exfalso. apply Z. rewrite Z'. ring.
  - cbn [emul]. f_equal. field. split; [exact Z'|lra].
Qed.

Lemma C38_refute : sensitivity (vec 0 [0; 0; 0]) (vec 0 [0; 0; 0]) = Ok [NaN; NaN; NaN].
Proof.
  rewrite (sens_at _ _ 1) by reflexivity. f_equal. cbn [seq Nat.mul Nat.add map].
  assert (V : forall i, (i < 3)%nat -> emul (nth i [0;0;0] 0 - nth i [0;0;0] 0) (sens_scale [0;0;0] (deg_of i)) = NaN).
  { intros i Hi. assert (D : deg_of i = 1%nat) by (apply deg_of_block; cbn; lia). rewrite D. unfold sens_scale.
    replace (degree_power [0;0;0] 1) with 0.
    - unfold Rdiv. rewrite Rmult_0_l, sqrt_0. unfold ediv. destruct (Req_EM_T 0 0); [|lra].
      destruct (Req_EM_T 1 0); [lra|]. destruct (Rlt_dec 0 1); [|lra]. cbn [emul].
      replace (nth i [0;0;0] 0 - nth i [0;0;0] 0) with 0 by ring. destruct (Req_EM_T 0 0); [reflexivity|lra].
    - symmetry. apply degree_power_zero. intros m Hm. destruct m as [|[|]]; [| |lia]; cbn; split; reflexivity || intros; reflexivity. }
  rewrite !V by lia. reflexivity.
Qed.
