(** The samples written by to_shc for order two and more determine the model. *)
From Coq Require Import Reals QArith Qreals List Arith ZArith String Bool Lia Lra.
From Verif Require Import M_Prelude M_ND Spec_Field Spec_PP M_Spectrum M_PP M_Model M_Text M_SHC M_SHCModel
  P_Spectrum P_Spline P_PP P_PP2 P_Model P_SynthProps3 P_SHCModel.
Import ListNotations.
Open Scope R_scope.

(** polynomials: coefficient list, constant first *)
Definition pe (l : list R) (x : R) : R := fold_right (fun a acc => a + x * acc) 0 l.
Lemma pe_div l r : exists q, List.length q = (List.length l - 1)%nat /\ forall x, pe l x = pe l r + (x - r) * pe q x.
Proof.
  induction l as [|a l IH]; [exists []; split; [reflexivity|intros; cbn; ring]|].
  destruct IH as (q & L & E). destruct l as [|a' l]; [exists []; split; [reflexivity|intros; cbn; ring]|].
  exists (pe (a' :: l) r :: q). split; [cbn [List.length] in *; lia|]. intros x. cbn [pe fold_right]. 
  change (fold_right (fun a acc => a + x * acc) 0 l) with (pe l x). change (fold_right (fun a acc => a + r * acc) 0 l) with (pe l r).
  change (fold_right (fun a acc => a + x * acc) 0 q) with (pe q x).
  change (a' + x * pe l x) with (pe (a' :: l) x). change (a' + r * pe l r) with (pe (a' :: l) r). rewrite E. ring.
Qed.
Lemma pe_roots : forall K l (r : nat -> R), (List.length l <= K)%nat -> (forall i j, (i < K)%nat -> (j < K)%nat -> i <> j -> r i <> r j) ->
  (forall i, (i < K)%nat -> pe l (r i) = 0) -> forall x, pe l x = 0.
Proof.
  induction K as [|K IH]; intros l r L DI RO x; [destruct l; [reflexivity|cbn in L; lia]|].
  destruct (pe_div l (r K)) as (q & Lq & E). rewrite E, (RO K) by lia.
  rewrite (IH q r); [ring|lia|intros i j Hi Hj; apply DI; lia|].
  intros i Hi. pose proof (E (r i)) as Ei. rewrite (RO i), (RO K) in Ei by lia.
  assert (N : r i - r K <> 0) by (intros Z; apply (DI i K); [lia|lia|lia|lra]).
  apply (Rmult_eq_reg_l (r i - r K)); [lra|exact N].
Qed.
Lemma pe_sum (a : nat -> R) s : forall K, fold_right Rplus 0 (map (fun k => a k * s ^ k) (seq 0 K)) = pe (map a (seq 0 K)) s.
Proof.
  change (forall K, Rsum (map (fun k => a k * s ^ k) (seq 0 K)) = pe (map a (seq 0 K)) s).
  assert (H : forall K m, Rsum (map (fun k => a k * s ^ k) (seq m K)) = s ^ m * pe (map a (seq m K)) s).
  { induction K as [|K IH]; intros m; [cbn; ring|]. cbn [seq map]. rewrite Rsum_cons, IH. cbn [pe fold_right pow].
    change (fold_right (fun a0 acc => a0 + s * acc) 0 (map a (seq (S m) K))) with (pe (map a (seq (S m) K)) s). ring. }
  intros K. rewrite H. cbn. ring.
Qed.

Lemma two_polys K (a b : nat -> R) (r : nat -> R) : (forall i j, (i < K)%nat -> (j < K)%nat -> i <> j -> r i <> r j) ->
  (forall i, (i < K)%nat -> fold_right Rplus 0 (map (fun k => a k * r i ^ k) (seq 0 K)) = fold_right Rplus 0 (map (fun k => b k * r i ^ k) (seq 0 K))) ->
  forall s, fold_right Rplus 0 (map (fun k => a k * s ^ k) (seq 0 K)) = fold_right Rplus 0 (map (fun k => b k * s ^ k) (seq 0 K)).
Proof.
  intros DI H s.
  assert (DIFF : forall s, fold_right Rplus 0 (map (fun k => a k * s ^ k) (seq 0 K)) - fold_right Rplus 0 (map (fun k => b k * s ^ k) (seq 0 K))
     = pe (map (fun k => a k - b k) (seq 0 K)) s).
  { intros y. rewrite <- pe_sum. change (Rsum (map (fun k => a k * y ^ k) (seq 0 K)) - Rsum (map (fun k => b k * y ^ k) (seq 0 K)) = Rsum (map (fun k => (a k - b k) * y ^ k) (seq 0 K))).
    clear H DI. induction (seq 0 K) as [|m l IH]; [cbn; ring|]. cbn [map]. rewrite !Rsum_cons, <- IH. ring. }
  pose proof (DIFF s) as E. rewrite (pe_roots K _ r) in E; [lra|rewrite map_length, seq_length; lia|exact DI|].
  intros i Hi. rewrite <- DIFF. rewrite H by exact Hi. ring.
Qed.

(** the sites *)
Lemma arange_ok a b step : a < b -> exists l, arange_step a b step = Ok l /\ List.length l = step /\
  forall i, (i < step)%nat -> nth i l 0 = a + INR i * ((b - a) / INR step).
Proof.
  intros H. unfold arange_step. destruct (Req_EM_T a b); [lra|]. eexists. split; [reflexivity|]. split; [rewrite map_length, seq_length; reflexivity|].
  intros i Hi. rewrite (nth_indep _ 0 ((fun i => a + INR i * ((b - a) / INR step)) 0%nat)) by (rewrite map_length, seq_length; exact Hi).
  rewrite (map_nth (fun i => a + INR i * ((b - a) / INR step))), seq_nth by exact Hi. reflexivity.
Qed.
Lemma sites_spec step : (1 <= step)%nat -> forall x, (1 <= List.length x)%nat -> (forall i, (i + 1 < List.length x)%nat -> nth i x 0 < nth (i + 1) x 0) ->
  exists l, shc_sites x step = Ok l /\ List.length l = ((List.length x - 1) * step + 1)%nat /\
    (forall p i, (p + 1 < List.length x)%nat -> (i < step)%nat -> nth (p * step + i) l 0 = nth p x 0 + INR i * ((nth (p + 1) x 0 - nth p x 0) / INR step)) /\
    nth ((List.length x - 1) * step) l 0 = nth (List.length x - 1) x 0.
Proof.
  intros Hs. induction x as [|a x IH]; intros L G; [cbn in L; lia|]. destruct x as [|b x].
  - exists [a]. split; [reflexivity|]. split; [reflexivity|]. split; [intros p i Hp; cbn in Hp; lia|reflexivity].
  - destruct (IH ltac:(cbn; lia)) as (m & E & Lm & Nm & Em).
    { intros i Hi. specialize (G (S i)). cbn in G. apply G. cbn in Hi. lia. }
    destruct (arange_ok a b step) as (l & El & Ll & Nl); [apply (G 0%nat); cbn; lia|].
    change (shc_sites (a :: b :: x) step) with (bind (arange_step a b step) (fun l => bind (shc_sites (b :: x) step) (fun m => Ok (l ++ m)%list))).
    rewrite El, E. cbn [bind]. exists (l ++ m)%list. split; [reflexivity|]. cbn [List.length] in *. split; [rewrite app_length, Ll, Lm; lia|]. split.
    + intros [|p] i Hp Hi.
      * cbn [Nat.mul Nat.add nth]. rewrite app_nth1 by lia. apply Nl. exact Hi.
      * rewrite app_nth2 by lia. rewrite Ll. replace (S p * step + i - step)%nat with (p * step + i)%nat by lia.
        change (nth (S p) (a :: b :: x) 0) with (nth p (b :: x) 0). change (nth (S p + 1) (a :: b :: x) 0) with (nth (p + 1) (b :: x) 0). apply Nm; [lia|exact Hi].
    + rewrite app_nth2 by nia. rewrite Ll. replace ((S (S (List.length x)) - 1) * step - step)%nat with ((S (List.length x) - 1) * step)%nat by nia.
      rewrite Em. replace (S (S (List.length x)) - 1)%nat with (S (S (List.length x) - 1)) by lia. reflexivity.
Qed.

Section Samples.
Variables (x : list R) (K D : nat) (c : nat -> nat -> nat -> R) (source : option string).
Hypothesis G : good_breaks x.
Hypothesis HK : (2 <= K)%nat.
Hypothesis HD : (3 <= D)%nat.
Let M := model_init (Some x) None (Some (mkc3 K (List.length x - 1) D c)) source.

Lemma samples : exists times r, to_shc_data M = Ok (times, r) /\
  List.length times = ((List.length x - 1) * (K - 1) + 1)%nat /\
  (forall p i, (p + 1 < List.length x)%nat -> (i < K)%nat ->
     nth (p * (K - 1) + i) times 0 = nth p x 0 + INR i * ((nth (p + 1) x 0 - nth p x 0) / INR (K - 1))) /\
  (s_dim r <= D)%nat /\
  forall i p d, (i < List.length times)%nat -> (d < s_dim r)%nat -> in_interval x p (nth i times 0) ->
    s_at r [i] d = Some (piece x K c p d (nth i times 0)).
Proof.
  pose proof G as [L2 GS].
  assert (B : m_base M = P_PP.model x K D c).
  { unfold M, model_init, P_PP.model, base_init. cbn [m_base c_k]. reflexivity. }
  destruct (degree_of_size_spec D) as (N0 & D1 & D2 & D3).
  assert (HM : m_nmax M = Some (Z.of_nat N0)) by (unfold M, model_init, base_init; cbn; rewrite D3; destruct x as [|? [|? ?]]; reflexivity).
  assert (BB : b_breaks (P_PP.model x K D c) = Some x) by (clear - L2; destruct x as [|? [|? ?]]; cbn in L2; try lia; reflexivity).
  unfold to_shc_data. rewrite HM, B, BB. cbn [b_coeffs b_order P_PP.model base_init].
  assert (S1 : (1 <= K - 1)%nat) by lia.
  destruct (sites_spec (K - 1) S1 x ltac:(lia) GS) as (l & E & LL & NL & EL).
  unfold to_shc_times. cbn [c_k]. destruct (Z.eqb_spec (Z.of_nat K) 1); [lia|].
  replace (Z.to_nat (Z.max (Z.of_nat K - 1) 1)) with (K - 1)%nat by lia. rewrite E. cbn [bind].
  unfold model_coeffs. rewrite B. cbn [option_map]. rewrite Nat2Z.id.
  set (time := vec 0 l).
  assert (NE : elems time <> []).
  { unfold time. rewrite elems_vec. intros E0. rewrite E0 in LL. cbn [List.length] in LL. nia. }
  assert (N1 : (1 <= N0)%nat) by nia.
  destruct (C39_ok x K D c time (Some (N0 * (N0 + 2))%nat) None XNone G ltac:(lia) ltac:(nia) NE ltac:(discriminate)) as (r & ER & Q1 & Q2).
  fold (P_PP.model x K D c) in ER. rewrite ER. cbn [bind]. exists l, r. split; [reflexivity|]. split; [exact LL|]. split; [|split].
  - intros p i Hp Hi. destruct (Nat.eq_dec i (K - 1)) as [ -> |NEQ].
    + replace (p * (K - 1) + (K - 1))%nat with ((p + 1) * (K - 1))%nat by lia.
      assert (IK : INR (K - 1) <> 0) by (apply not_0_INR; lia).
      destruct (Nat.eq_dec (p + 2) (List.length x)) as [EE|EE].
      * replace (p + 1)%nat with (List.length x - 1)%nat by lia. rewrite EL. field. exact IK.
      * rewrite <- (Nat.add_0_r ((p + 1) * (K - 1))), NL by lia. change (INR 0) with 0. field. exact IK.
    + apply NL; [exact Hp|lia].
  - rewrite Q2. lia.
  - intros i p d Hi Hd I. assert (V : valid (sh time) [i]) by (unfold time, vec; cbn [sh]; constructor; [exact Hi|constructor]).
    exact (C39 x K D c time _ XNone r [i] p d G ltac:(lia) ltac:(rewrite Q2 in Hd; lia) V ER I).
Qed.

Lemma samples_determine times r d (c' : nat -> nat -> nat -> R) : to_shc_data M = Ok (times, r) -> (d < s_dim r)%nat ->
  continuous_at_breaks x K c d -> continuous_at_breaks x K c' d ->
  (forall i p, (i < List.length times)%nat -> in_interval x p (nth i times 0) -> Some (piece x K c' p d (nth i times 0)) = s_at r [i] d) ->
  forall p t, in_interval x p t -> piece x K c' p d t = piece x K c p d t.
Proof.
  intros E Hd C1 C2 H p t I. destruct samples as (times' & r' & E' & LL & NL & SD & SV). rewrite E in E'. injection E' as <- <-.
  pose proof I as (IL & _). pose proof G as [L2 GS]. pose proof (GS p IL) as GP.
  set (h := (nth (p + 1) x 0 - nth p x 0) / INR (K - 1)).
  assert (IK : 0 < INR (K - 1)) by (apply lt_0_INR; lia).
  assert (HP : 0 < h) by (unfold h; apply Rdiv_lt_0_compat; lra).
  assert (HE : INR (K - 1) * h = nth (p + 1) x 0 - nth p x 0) by (unfold h; field; lra).
  assert (AG : forall i, (i < K)%nat -> piece x K c' p d (nth p x 0 + INR i * h) = piece x K c p d (nth p x 0 + INR i * h)).
  { intros i Hi. pose proof (NL p i IL Hi) as T. fold h in T.
    assert (LI : (p * (K - 1) + i < List.length times)%nat) by nia.
    destruct (Nat.eq_dec i (K - 1)) as [ -> |NEQ].
    - destruct (Nat.eq_dec (p + 2) (List.length x)) as [EE|EE].
      + assert (J : in_interval x p (nth (p * (K - 1) + (K - 1)) times 0)).
        { rewrite T, HE. split; [exact IL|]. split; [lra|]. right. split; [exact EE|ring]. }
        pose proof (H _ p LI J) as X. rewrite (SV _ p d LI Hd J) in X. rewrite T in X. congruence.
      + assert (J : in_interval x (p + 1) (nth (p * (K - 1) + (K - 1)) times 0)).
        { rewrite T, HE. split; [lia|]. split; [lra|]. left. pose proof (GS (p + 1)%nat ltac:(lia)). lra. }
        pose proof (H _ (p + 1)%nat LI J) as X. rewrite (SV _ (p + 1)%nat d LI Hd J) in X. rewrite T in X. rewrite HE in *.
        replace (nth p x 0 + (nth (p + 1) x 0 - nth p x 0)) with (nth (p + 1) x 0) in * by ring.
        rewrite (C1 p), (C2 p) by lia. congruence.
    - assert (LTI : INR i < INR (K - 1)) by (apply lt_INR; lia). pose proof (pos_INR i) as PI.
      assert (J : in_interval x p (nth (p * (K - 1) + i) times 0)).
      { rewrite T. split; [exact IL|]. split; [nra|]. left. nra. }
      pose proof (H _ p LI J) as X. rewrite (SV _ p d LI Hd J) in X. rewrite T in X. congruence. }
  unfold piece in *.
  apply (two_polys K (fun k => c' (K - 1 - k)%nat p d) (fun k => c (K - 1 - k)%nat p d) (fun i => INR i * h)).
  - intros i j Hi Hj N EQ. apply Rmult_eq_reg_r in EQ; [|lra]. apply INR_eq in EQ. contradiction.
  - intros i Hi. specialize (AG i Hi). replace (nth p x 0 + INR i * h - nth p x 0) with (INR i * h) in AG by ring. exact AG.
Qed.
End Samples.
