(** Collocation matrix and pp_from_bspline against the B-splines of Spec_Spline. *)
From Coq Require Import Reals List Arith ZArith String Bool Lia Lra Sorted.
From Coquelicot Require Import Coquelicot.
From Verif Require Import M_Prelude M_ND Spec_Field Spec_Spline Spec_PP M_Spectrum M_Spline M_PP M_Model M_FromSpline
  P_Spectrum P_Spectrum2 P_Spectrum3 P_Spline P_Spline2 P_Spline3 P_PP P_PP2.
Import ListNotations.
Open Scope R_scope.

Lemma map_seq_nth (f : nat -> R) n i : (i < n)%nat -> nth i (map f (seq 0 n)) 0 = f i.
Proof.
  intros H. rewrite (nth_indep _ 0 (f 0%nat)) by (rewrite map_length, seq_length; exact H).
  rewrite (map_nth f), seq_nth by exact H. reflexivity.
Qed.

Lemma colloc_is_bspline b order t x deriv M i p m :
  good_breaks b -> (1 <= order)%nat -> augment_breaks b (Z.of_nat order) = Ok t ->
  colloc_matrix x t order deriv = Ok M -> (i < List.length x)%nat -> in_interval b p (nth i x 0) -> (m < o_cols M)%nat ->
  let nu := match deriv with None => 0%nat | Some d => d end in
  exists P v, (forall y, in_interval b p y -> bspline t (order - 1) m y = P y) /\
    o_at M i m = Some v /\ is_derive_n P nu (nth i x 0) v.
Proof.
  intros G Ho Ea E Hi I Hm nu. pose proof (len_t b order t G Ho Ea) as L. pose proof I as (IL & _).
  unfold colloc_matrix in E. fold nu in E. destruct (Nat.ltb_spec (List.length t) order); [discriminate|].
  set (u := unit_vec (List.length t - order) m).
  assert (MC : o_cols M = (List.length t - order)%nat) by (destruct (_ <=? _)%nat; [|destruct (_ && _)%bool; [discriminate|]]; injection E as <-; reflexivity).
  rewrite MC in Hm.
  assert (SP : forall y, in_interval b p y -> bspline t (order - 1) m y = spoly order t u p 0 y).
  { intros y Iy. rewrite <- (spline_spoly b order t G Ho Ea (fun i => if (i =? m)%nat then 1 else 0) u p y Iy).
    - unfold spline. change (bspline t (order - 1) m y = Rsum (map (fun i => (if (i =? m)%nat then 1 else 0) * bspline t (order - 1) i y) (seq 0 (List.length t - order)))).
      rewrite (Rsum_single (fun i => bspline t (order - 1) i y)) by exact Hm. reflexivity.
    - intros i0 Hi0. apply nth_unit. exact Hi0. }
  exists (spoly order t u p 0). destruct (Nat.leb_spec order nu) as [C|C].
  - injection E as <-. exists 0. split; [exact SP|]. split; [reflexivity|]. apply (spoly_high b order t G Ho Ea); [exact IL|lia].
  - destruct (_ && _)%bool; [discriminate|]. injection E as <-. cbn [o_at].
    exists (spoly order t u p nu (nth i x 0)). split; [exact SP|]. split.
    + apply (eval_spoly b order t G Ho Ea). exact I.
    + apply (spoly_derive b order t G Ho Ea); [exact IL|lia].
Qed.

(** np.unique *)
Lemma insert_in v l x : In x (insert_unique v l) <-> x = v \/ In x l.
Proof.
  induction l as [|y l IH]; cbn; [intuition|]. destruct (Rlt_dec v y); [cbn; intuition|]. destruct (Req_EM_T v y) as [ -> |N]; [cbn; intuition|].
  cbn. rewrite IH. intuition.
Qed.
Lemma insert_sorted v l : StronglySorted Rlt l -> StronglySorted Rlt (insert_unique v l).
Proof.
  induction l as [|y l IH]; intros S; cbn; [repeat constructor|]. inversion S as [|? ? S1 S2]; subst.
  destruct (Rlt_dec v y) as [L|L].
  - constructor; [exact S|]. constructor; [exact L|]. rewrite Forall_forall in *. intros z Hz. specialize (S2 z Hz). lra.
  - destruct (Req_EM_T v y); [exact S|]. constructor; [apply IH; exact S1|]. rewrite Forall_forall in *. intros z Hz. apply insert_in in Hz.
    destruct Hz as [ -> |Hz]; [lra|apply S2; exact Hz].
Qed.
Lemma unique_in l x : In x (unique l) <-> In x l.
Proof. induction l as [|y l IH]; cbn; [reflexivity|]. rewrite insert_in, IH. intuition. Qed.
Lemma unique_sorted l : StronglySorted Rlt (unique l).
Proof. induction l as [|y l IH]; cbn; [constructor|]. apply insert_sorted. exact IH. Qed.
Lemma sorted_ext l : forall m, StronglySorted Rlt l -> StronglySorted Rlt m -> (forall x, In x l <-> In x m) -> l = m.
Proof.
  induction l as [|x l IH]; intros [|y m] S1 S2 H.
  - reflexivity.
  - exfalso. apply (proj2 (H y)). left; reflexivity.
  - exfalso. apply (proj1 (H x)). left; reflexivity.
  - inversion S1 as [|? ? A1 A2]; subst. inversion S2 as [|? ? B1 B2]; subst. rewrite Forall_forall in *.
    assert (x = y).
    { destruct (proj1 (H x) (or_introl eq_refl)) as [E|E]; [congruence|]. destruct (proj2 (H y) (or_introl eq_refl)) as [F|F]; [congruence|].
      specialize (A2 _ F). specialize (B2 _ E). lra. }
    subst y. f_equal. apply IH; [assumption|assumption|]. intros z. split; intros Hz.
    + destruct (proj1 (H z) (or_intror Hz)) as [E|E]; [|exact E]. subst z. specialize (A2 _ Hz). lra.
    + destruct (proj2 (H z) (or_intror Hz)) as [E|E]; [|exact E]. subst z. specialize (B2 _ Hz). lra.
Qed.

Section Conv.
Variables (b : list R) (order : nat) (t : list R).
Hypothesis G : good_breaks b.
Hypothesis Ho : (1 <= order)%nat.
Hypothesis Ea : augment_breaks b (Z.of_nat order) = Ok t.

Lemma unique_aug : unique t = b.
Proof.
  apply sorted_ext; [apply unique_sorted|apply good_sorted; exact G|]. intros x. rewrite unique_in.
  unfold augment_breaks in Ea. pose proof (proj1 G). destruct b as [|b0 b']; [discriminate|].
  match type of Ea with Ok ?u = Ok _ => assert (E' : u = t) by congruence end. rewrite <- E'.
  rewrite !in_app_iff. split.
  - intros [H0|[H0|H0]]; [|exact H0|].
    + apply repeat_spec in H0. subst x. left; reflexivity.
    + apply repeat_spec in H0. subst x. pose proof (@app_removelast_last R (b0 :: b') b0 ltac:(discriminate)) as AL. rewrite AL at 2. apply in_or_app. right. left. reflexivity.
  - tauto.
Qed.
Lemma unique_b : unique b = b.
Proof. apply sorted_ext; [apply unique_sorted|apply good_sorted; exact G|]. intros x. apply unique_in. Qed.

Lemma sortedb_mono l : (forall i, (i + 1 < List.length l)%nat -> nth i l 0 <= nth (i + 1) l 0) -> sortedb l = true.
Proof.
  induction l as [|x [|y l] IH]; intros H; [reflexivity|reflexivity|]. cbn [sortedb]. pose proof (H 0%nat ltac:(cbn; lia)) as H0. cbn in H0.
  destruct (Rlt_dec y x); [lra|]. apply IH. intros i Hi. specialize (H (S i)). cbn in H. apply H. cbn in Hi. lia.
Qed.
Lemma check_aug rows : (List.length t - order <= rows)%nat -> bspline_check t rows (order - 1) = true.
Proof.
  intros Hr. pose proof (len_t b order t G Ho Ea) as L. pose proof (proj1 G) as LB. unfold bspline_check.
  destruct (Nat.leb_spec (2 * (order - 1) + 2) (List.length t)); [|lia].
  rewrite sortedb_mono. 2:{ intros i Hi. apply (aug_mono b order t G Ho Ea i (i + 1)). lia. }
  destruct (Nat.leb_spec (List.length t - (order - 1) - 1) rows); [|lia]. 
  replace (firstn (List.length t - (order - 1) - 1 + 1 - (order - 1)) (skipn (order - 1) t)) with b.
  - rewrite unique_b. destruct (Nat.leb_spec 2 (List.length b)); [reflexivity|lia].
  - unfold augment_breaks in Ea. destruct b as [|b0 b']; [discriminate|]. replace (List.length t - (order - 1) - 1 + 1 - (order - 1))%nat with (List.length (b0 :: b') + 0)%nat by lia.
    match type of Ea with Ok ?u = Ok _ => assert (E' : u = t) by congruence end. rewrite <- E'. replace (Z.to_nat (Z.of_nat order - 1)) with (order - 1)%nat by lia.
    rewrite skipn_app, repeat_length, Nat.sub_diag. rewrite skipn_all2 by (rewrite repeat_length; lia). cbn [skipn].
    change ([] ++ (b0 :: b') ++ repeat (last (b0 :: b') b0) (order - 1)) with ((b0 :: b') ++ repeat (last (b0 :: b') b0) (order - 1)).
    rewrite firstn_app_2. cbn [firstn]. rewrite app_nil_r. reflexivity.
Qed.

Lemma pp_is_spline rows dim (c : nat -> nat -> R) : (List.length t - order <= rows)%nat ->
  exists C, pp_from_bspline rows dim c t order = Ok (mkc3 order (List.length b - 1) dim C, b) /\
    forall p d x, (d < dim)%nat -> in_interval b p x ->
      piece b order C p d x = spline t (order - 1) (fun i => c i d) (List.length t - order) x.
Proof.
  intros Hr. pose proof (len_t b order t G Ho Ea) as L. pose proof (proj1 G) as LB. unfold pp_from_bspline.
  rewrite unique_aug, (check_aug rows Hr). rewrite andb_false_r.
  destruct (Nat.leb_spec (order - 1 + (List.length b - 1)) (List.length t - 1)) as [_|C]; [|lia]. rewrite andb_false_r.
  eexists. split; [reflexivity|]. intros p d x Hd I. pose proof I as (IL & I1 & _).
  set (l := map (fun r => c r d) (seq 0 rows)).
  rewrite (spline_spoly b order t G Ho Ea (fun i => c i d) l p x I).
  2:{ intros i Hi. unfold l. apply (map_seq_nth (fun r => c r d)). lia. }
  rewrite (spoly_taylor b order t G Ho Ea l p (nth p b 0) x IL I1). replace (S (order - 1)) with order by lia.
  unfold piece. change (fold_right Rplus 0 ?l) with (Rsum l). apply Rsum_seq_ext. intros m Hm.
  unfold from_spline. rewrite (knot_b b order t G Ho Ea p) by lia.
  replace (order - 1 - (order - 1 - m))%nat with m by lia.
  assert (IB : in_interval b p (nth p b 0)).
  { split; [exact IL|]. split; [lra|]. left. apply (proj2 G). exact IL. }
  fold l. rewrite (eval_spoly b order t G Ho Ea l p (nth p b 0) m IB). reflexivity.
Qed.

(** the model made from the spline, evaluated *)
Lemma from_bspline_evaluates rows dim (c : nat -> nat -> R) source time nmax e : (List.length t - order <= rows)%nat ->
  exists M, from_bspline rows dim c t order source = Ok M /\
    forall r, model_coeffs M time nmax None e = Ok r ->
    forall idx d, valid (sh time) idx -> (d < dim)%nat -> first_break b <= at_ time idx <= last_break b ->
      s_at r idx d = Some (spline t (order - 1) (fun i => c i d) (List.length t - order) (at_ time idx)).
Proof.
  intros Hr. destruct (pp_is_spline rows dim c Hr) as (C & E & S). unfold from_bspline. rewrite E. cbn [bind].
  eexists. split; [reflexivity|]. intros r Er idx d V Hd Hx. destruct (in_interval_ex b _ G Hx) as [p I].
  rewrite <- (S p d _ Hd I). unfold model_coeffs in Er.
  assert (EB : m_base (model_init (Some b) (Some (Z.of_nat order)) (Some (mkc3 order (List.length b - 1) dim C)) source) =
          base_init (Some b) None (Some (mkc3 order (List.length b - 1) dim C))).
  { unfold model_init, base_init. cbn [m_base c_k]. rewrite Z.min_id. reflexivity. }
  rewrite EB in Er. exact (C39 b order dim C time _ e r idx p d G Ho Hd V Er I).
Qed.
End Conv.

(** Interior knots with multiplicity: piece 2 is not the spline. *)
Ltac rdec := repeat (match goal with
  | |- context [Rlt_dec ?u ?v] => destruct (Rlt_dec u v); [try (exfalso; lra)|try (exfalso; lra)]
  | |- context [Rle_dec ?u ?v] => destruct (Rle_dec u v); [try (exfalso; lra)|try (exfalso; lra)]
  | |- context [Req_EM_T ?u ?v] => destruct (Req_EM_T u v); [try (exfalso; lra)|try (exfalso; lra)]
  end; cbn [insert_unique find_interval Nat.eqb Nat.sub Nat.add knot nth sortedb]).
Definition rep_knots : list R := [0; 0; 1; 1; 2; 2; 3; 3].
Lemma unique_rep : unique rep_knots = [0; 1; 2; 3].
Proof. unfold unique, rep_knots. cbn [fold_right insert_unique]. rdec. reflexivity. Qed.
Lemma unique_rep' : unique [0; 1; 1; 2; 2; 3] = [0; 1; 2; 3].
Proof. unfold unique. cbn [fold_right insert_unique]. rdec. reflexivity. Qed.
Lemma check_rep : bspline_check rep_knots 6 1 = true.
Proof.
  unfold bspline_check. change (firstn (List.length rep_knots - 1 - 1 + 1 - 1) (skipn 1 rep_knots)) with [0; 1; 1; 2; 2; 3].
  rewrite unique_rep'. replace (sortedb rep_knots) with true; [reflexivity|]. unfold rep_knots. cbn [sortedb]. rdec. reflexivity.
Qed.
Definition rep_coeffs (i d : nat) : R := if (i =? 4)%nat then 1 else 0.
Lemma rep_piece : exists C, pp_from_bspline 6 1 rep_coeffs rep_knots 2 = Ok (mkc3 2 3 1 C, [0; 1; 2; 3]) /\ piece [0; 1; 2; 3] 2 C 2 0 2.5 = 0.
Proof.
  unfold pp_from_bspline. rewrite unique_rep. cbn [Nat.sub]. rewrite check_rep. cbn [Nat.ltb Nat.leb andb negb rep_knots List.length Nat.add Nat.sub].
  eexists. split; [reflexivity|]. unfold piece. cbn [seq map fold_right Nat.sub].
  assert (Z : forall j, from_spline rep_knots (map (fun r => rep_coeffs r 0) (seq 0 6)) 1 j 3 = 0).
  { intros j. unfold from_spline, bspline_eval. change (knot rep_knots 3) with 1. change (knot rep_knots 1) with 0. 
    change (knot rep_knots (List.length rep_knots - 1 - 1)) with 3. change (List.length rep_knots - 1 - 1)%nat with 6%nat.
    destruct (Rlt_dec 1 0); [exfalso; lra|]. destruct (Rlt_dec 3 1); [exfalso; lra|].
    replace (find_interval (List.length rep_knots) rep_knots 6 1 1) with 3%nat.
    - cbn [seq fold_left Nat.add Nat.sub map rep_coeffs Nat.eqb nth]. unfold Rdiv. ring.
    - unfold rep_knots. cbn [List.length find_interval]. unfold knot. cbn [nth Nat.add]. 
      destruct (Rle_dec 1 1) as [_|F]; [|exfalso; apply F; lra]. cbn [Nat.eqb Nat.sub Nat.add nth].
      destruct (Rle_dec 1 1) as [_|F]; [|exfalso; apply F; lra]. cbn [Nat.eqb Nat.sub Nat.add nth].
      destruct (Rle_dec 2 1); [exfalso; lra|]. reflexivity. }
  rewrite !Z. ring.
Qed.
Lemma rep_spline : spline rep_knots 1 (fun i => rep_coeffs i 0) 6 2.5 = 0.5.
Proof.
  unfold spline. cbn [seq map fold_right rep_coeffs Nat.eqb]. rewrite !Rmult_0_l, !Rplus_0_l, !Rplus_0_r, Rmult_1_l.
  unfold bspline, indicator, ratio, rep_knots. cbn [nth Nat.add last]. 
  repeat (match goal with
  | |- context [Rlt_dec ?u ?v] => destruct (Rlt_dec u v); [try (exfalso; lra)|try (exfalso; lra)]
  | |- context [Rle_dec ?u ?v] => destruct (Rle_dec u v); [try (exfalso; lra)|try (exfalso; lra)]
  | |- context [Req_EM_T ?u ?v] => destruct (Req_EM_T u v); [try (exfalso; lra)|try (exfalso; lra)]
  end). lra.
Qed.

(** Any knots: what colloc_matrix does *)
Lemma C74_any_knots_p : forall x knots order deriv, let nu := match deriv with None => 0%nat | Some d => d end in
  ((List.length knots < order)%nat -> colloc_matrix x knots order deriv = Err ValueError) /\
  ((order <= List.length knots)%nat -> (order <= nu)%nat ->
     exists M, colloc_matrix x knots order deriv = Ok M /\ o_rows M = Nat.max (List.length x) 1 /\ o_cols M = (List.length knots - order)%nat /\
       forall i n, o_at M i n = Some 0) /\
  ((order < List.length knots)%nat -> (nu < order)%nat -> x = [] -> colloc_matrix x knots order deriv = Err ValueError) /\
  ((order <= List.length knots)%nat -> x <> [] -> exists M, colloc_matrix x knots order deriv = Ok M /\
     o_rows M = List.length x /\ o_cols M = (List.length knots - order)%nat).
Proof.
  intros x knots order deriv nu. unfold colloc_matrix. fold nu. cbv zeta.
  destruct (Nat.ltb_spec (List.length knots) order) as [L|L]; [split; [reflexivity|]; repeat split; intros; lia|].
  split; [lia|].
  destruct (Nat.leb_spec order nu) as [O|O].
  - split; [intros _ _; eexists; repeat split; reflexivity|]. split; [lia|].
    intros _ Hx. eexists. split; [reflexivity|]. cbn [o_rows o_cols]. destruct x; [congruence|cbn [List.length]; split; lia].
  - split; [lia|]. split.
    + intros Hl _ ->. cbn [List.length Nat.eqb]. destruct (Nat.ltb_spec 0 (List.length knots - order)); [reflexivity|lia].
    + intros _ Hx. destruct x as [|x0 xs]; [congruence|]. cbn [List.length Nat.eqb andb]. eexists. split; [reflexivity|]. cbn [o_rows o_cols]. split; lia.
Qed.
