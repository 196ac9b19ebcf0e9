(** Proofs of C39-C45. *)
From Coq Require Import Reals List Arith ZArith String Bool Lia Lra.
From Coquelicot Require Import Coquelicot.
From Verif Require Import M_Prelude M_ND Spec_Field Spec_PP M_Spectrum M_PP P_Spectrum P_Spline P_PP P_ND.
Import ListNotations.
Open Scope R_scope.


Lemma extrap_key_ok K e : (exists z, extrap_key K e = Ok z) <-> (forall s, e = XStr s -> In s documented).
Proof.
  unfold documented. destruct e as [|b|s|z]; cbn [extrap_key]; try (split; [intros _ s E; discriminate|intros _; eexists; reflexivity]).
  split.
  - intros [z Ez] s' E. injection E as <-.
    repeat match type of Ez with (if (?q =? ?u)%string then _ else _) = _ => destruct (String.eqb_spec q u); [subst; cbn; tauto|] end. discriminate.
  - intros H. specialize (H s eq_refl). cbn in H.
    destruct H as [ <- | [ <- | [ <- | [ <- | [ <- | [ <- | [] ] ] ] ] ] ]; eexists; reflexivity.
Qed.
Lemma extrap_key_err K e : (exists s, e = XStr s /\ ~ In s documented) -> exists z, extrap_key K e = Err z.
Proof.
  intros (s & -> & H). destruct (extrap_key K (XStr s)) as [z|z] eqn:E; [|eexists; reflexivity].
  exfalso. apply H. apply (proj1 (extrap_key_ok K (XStr s))); [eexists; exact E|reflexivity].
Qed.

Lemma elems_in {A} (a : nd A) idx : valid (sh a) idx -> In (at_ a idx) (elems a).
Proof. intros H. unfold elems. apply in_map. apply indices_valid. exact H. Qed.
Lemma elems_ne {A} (a : nd A) idx : valid (sh a) idx -> elems a <> [].
Proof. intros H E. pose proof (elems_in a idx H) as I. rewrite E in I. exact I. Qed.

Lemma some_outside_dec x time : {some_outside x time} + {~ some_outside x time}.
Proof.
  unfold some_outside. induction (elems time) as [|t l IH].
  - right. intros (t & [] & _).
  - destruct (Rlt_dec t (first_break x)) as [a|a]; [left; exists t; split; [left; reflexivity|left; exact a]|].
    destruct (Rlt_dec (last_break x) t) as [b|b]; [left; exists t; split; [left; reflexivity|right; exact b]|].
    destruct IH as [IH|IH].
    + left. destruct IH as (u & Hu & Ho). exists u. split; [right; exact Hu|exact Ho].
    + right. intros (u & [ <- |Hu] & Ho); [unfold outside in Ho; lra|]. apply IH. exists u. split; assumption.
Qed.

Lemma in_interval_inside x i t : good_breaks x -> in_interval x i t -> first_break x <= t <= last_break x.
Proof.
  intros G (L & H1 & H2). pose proof (good_mono x G 0%nat i ltac:(lia)). unfold first_break, last_break. split; [lra|].
  pose proof (good_mono x G (i + 1)%nat (List.length x - 1)%nat ltac:(lia)). destruct H2 as [H2|[_ H2]]; lra.
Qed.
Lemma last_interval x i : good_breaks x -> in_interval x i (last_break x) -> i = (List.length x - 2)%nat.
Proof.
  intros G (L & H1 & H2). destruct H2 as [H2|[H2 _]]; [|lia]. unfold last_break in H2.
  pose proof (good_mono x G (i + 1)%nat (List.length x - 1)%nat ltac:(lia)). lra.
Qed.
Lemma in_last x : good_breaks x -> in_interval x (List.length x - 2) (last_break x).
Proof.
  intros G. pose proof G as [L2 _]. split; [lia|]. unfold last_break. split; [left; apply good_lt; [exact G|lia]|]. right. split; [lia|]. f_equal. lia.
Qed.

Lemma bin_at_end x K c right key d : (1 <= key)%nat ->
  bin_value x K c right key 0 d (if right then last_break x else first_break x) = end_deriv x K c right 0 d.
Proof.
  intros H. unfold bin_value. rewrite Rminus_diag_eq by reflexivity. destruct key as [|key]; [lia|].
  cbn [seq map]. rewrite Rsum_cons. cbn [falling]. change (INR 1) with 1. rewrite Nat.sub_0_r, pow_O.
  replace (Rsum _) with 0; [ring|]. symmetry.
  rewrite (Rsum_shift _ 1), (Rsum_seq_ext _ (fun _ => 0)); [apply Rsum_const0|]. intros k _. cbn [Nat.add Nat.sub].
  rewrite pow_i by lia. ring.
Qed.

(** Value at an inside time. *)
Lemma inside_value x K D c time dim deriv e r idx i d :
  good_breaks x -> (1 <= K)%nat -> (d < D)%nat -> valid (sh time) idx ->
  synth_coeffs (model x K D c) time dim deriv e = Ok r ->
  in_interval x i (at_ time idx) ->
  nu_of deriv = 0%nat \/ at_ time idx <> last_break x \/ ~ some_outside x time ->
  s_at r idx d = Some (poly_eval K (fun r => c r i d) (nu_of deriv) (at_ time idx - nth i x 0) * 365.25 ^ nu_of deriv).
Proof.
  intros G HK HD HV E HI HC.
  destruct (synth_coeffs_spec x K D c time dim deriv e G HK ltac:(lia) (elems_ne _ _ HV)) as (S1 & S2 & S3 & S4).
  destruct (some_outside_dec x time) as [SO|SO].
  - destruct (extrap_key (Z.of_nat K) e) as [z|z] eqn:EK.
    2:{ rewrite S2 in E; [discriminate|exact SO|eexists; exact eq_refl]. }
    assert (KO : key_of K e = Ok (Z.min z (Z.of_nat K))) by (unfold key_of; rewrite EK; reflexivity).
    destruct (Z.le_gt_cases (Z.min z (Z.of_nat K)) 0) as [L|L].
    + destruct (S3 SO _ KO L) as (r' & E' & _ & _ & V & _). rewrite E in E'. injection E' as <-. exact (V idx d i HD HI).
    + destruct (S4 SO _ KO L) as (r' & E' & _ & _ & V & W & _). rewrite E in E'. injection E' as <-.
      destruct (Req_EM_T (at_ time idx) (last_break x)) as [Q|Q].
      * destruct HC as [HC|[HC|HC]]; [|contradiction|contradiction].
        rewrite (W idx d HD (Req_le_sym _ _ Q)). rewrite Q in HI. apply (last_interval x i G) in HI. subst i.
        rewrite HC, Q. f_equal. f_equal. exact (bin_at_end x K c true (Z.to_nat (Z.min z (Z.of_nat K))) d ltac:(lia)).
      * apply V; [exact HD|exact HI|]. pose proof (in_interval_inside x i _ G HI). lra.
  - destruct (S1 SO) as (r' & E' & _ & _ & V). rewrite E in E'. injection E' as <-. exact (V idx d i HD HI).
Qed.

Lemma C39 x K D c time dim e r idx i d :
  good_breaks x -> (1 <= K)%nat -> (d < D)%nat -> valid (sh time) idx ->
  synth_coeffs (model x K D c) time dim None e = Ok r ->
  in_interval x i (at_ time idx) -> s_at r idx d = Some (piece x K c i d (at_ time idx)).
Proof.
  intros G HK HD HV E HI. rewrite (inside_value x K D c time dim None e r idx i d G HK HD HV E HI) by (left; reflexivity).
  cbn [nu_of]. rewrite pow_O, Rmult_1_r, piece_poly. reflexivity.
Qed.

Lemma C39_ok x K D c time dim deriv e :
  good_breaks x -> (1 <= K)%nat -> (1 <= D)%nat -> elems time <> [] -> (forall s, e = XStr s -> In s documented) ->
  exists r, synth_coeffs (model x K D c) time dim deriv e = Ok r /\ s_sh r = sh time /\
    s_dim r = match dim with None => D | Some n => Nat.min n D end.
Proof.
  intros G HK HD HE HS. destruct (synth_coeffs_spec x K D c time dim deriv e G HK HD HE) as (S1 & S2 & S3 & S4).
  destruct (some_outside_dec x time) as [SO|SO].
  - destruct (proj2 (extrap_key_ok (Z.of_nat K) e) HS) as [z EK].
    assert (KO : key_of K e = Ok (Z.min z (Z.of_nat K))) by (unfold key_of; rewrite EK; reflexivity).
    destruct (Z.le_gt_cases (Z.min z (Z.of_nat K)) 0) as [L|L].
    + destruct (S3 SO _ KO L) as (r' & E' & A & B & _). exists r'. tauto.
    + destruct (S4 SO _ KO L) as (r' & E' & A & B & _). exists r'. tauto.
  - destruct (S1 SO) as (r' & E' & A & B & _). exists r'. tauto.
Qed.

Lemma C39_unique x t i j : good_breaks x -> in_interval x i t -> in_interval x j t -> i = j.
Proof.
  intros G Hi Hj. pose proof (interval_inside x 1 (fun _ _ _ => 0) true i t G Hi) as A.
  rewrite (interval_inside x 1 (fun _ _ _ => 0) true j t G Hj) in A. congruence.
Qed.

Lemma year_day t : 365.25 * (t / 365.25) = t.
Proof. lra. Qed.

Lemma C40 x K D c time dim deriv e r idx i d :
  good_breaks x -> (1 <= K)%nat -> (d < D)%nat -> valid (sh time) idx ->
  synth_coeffs (model x K D c) time dim (Some deriv) e = Ok r ->
  in_interval x i (at_ time idx) ->
  at_ time idx <> last_break x \/ (forall t, In t (elems time) -> ~ outside x t) ->
  exists v, s_at r idx d = Some v /\
    is_derive_n (fun year => piece x K c i d (365.25 * year)) deriv (at_ time idx / 365.25) v.
Proof.
  intros G HK HD HV E HI HC. eexists. split.
  - apply (inside_value x K D c time dim (Some deriv) e r idx i d G HK HD HV E HI). right. destruct HC as [HC|HC]; [left; exact HC|right].
    intros (t & Ht & Ho). exact (HC t Ht Ho).
  - cbn [nu_of]. apply (is_derive_n_ext (fun y => poly_eval K (fun r => c r i d) 0 (365.25 * y - nth i x 0))).
    { intros y. symmetry. apply piece_poly. }
    pose proof (is_derive_n_poly K (fun r => c r i d) (nth i x 0) 365.25 deriv (at_ time idx / 365.25)) as P.
    rewrite year_day in P. rewrite Rmult_comm. exact P.
Qed.

(** ** Outside *)
Lemma outside_some x time idx : valid (sh time) idx -> outside x (at_ time idx) -> some_outside x time.
Proof. intros HV H. exists (at_ time idx). split; [apply elems_in, HV|exact H]. Qed.

Lemma off_value x K D c time dim deriv e r idx d :
  good_breaks x -> (1 <= K)%nat -> (d < D)%nat -> valid (sh time) idx ->
  e = XStr "off" \/ e = XBool false \/ (exists z, (z <= 0)%Z /\ e = XInt z) ->
  synth_coeffs (model x K D c) time dim deriv e = Ok r ->
  (s_at r idx d = None <-> outside x (at_ time idx)).
Proof.
  intros G HK HD HV HE E. 
  destruct (synth_coeffs_spec x K D c time dim deriv e G HK ltac:(lia) (elems_ne _ _ HV)) as (S1 & S2 & S3 & S4).
  destruct (some_outside_dec x time) as [SO|SO].
  - assert (KO : exists z, key_of K e = Ok z /\ (z <= 0)%Z).
    { unfold key_of. destruct HE as [ -> | [ -> | [z [Hz -> ] ] ] ]; eexists; (split; [reflexivity|lia]). }
    destruct KO as (z & KO & Hz). destruct (S3 SO _ KO Hz) as (r' & E' & _ & _ & V & W). rewrite E in E'. injection E' as <-. split.
    + intros HN. destruct (Rlt_dec (at_ time idx) (first_break x)); [left; assumption|]. destruct (Rlt_dec (last_break x) (at_ time idx)); [right; assumption|].
      destruct (in_interval_ex x (at_ time idx) G ltac:(lra)) as [i Hi]. rewrite (V idx d i HD Hi) in HN. discriminate.
    + apply W.
  - destruct (S1 SO) as (r' & E' & _ & _ & V). rewrite E in E'. injection E' as <-. split.
    + intros HN. destruct (Rlt_dec (at_ time idx) (first_break x)); [left; assumption|]. destruct (Rlt_dec (last_break x) (at_ time idx)); [right; assumption|].
      destruct (in_interval_ex x (at_ time idx) G ltac:(lra)) as [i Hi]. rewrite (V idx d i HD Hi) in HN. discriminate.
    + intros Ho. exfalso. apply SO. exact (outside_some x time idx HV Ho).
Qed.


Lemma ext_value x K D c time dim deriv e r idx d right z :
  good_breaks x -> (1 <= K)%nat -> (d < D)%nat -> valid (sh time) idx ->
  key_of K e = Ok z -> (0 < z)%Z ->
  synth_coeffs (model x K D c) time dim deriv e = Ok r ->
  beyond x right (at_ time idx) ->
  s_at r idx d = Some (bin_value x K c right (Z.to_nat z) (nu_of deriv) d (at_ time idx) * 365.25 ^ nu_of deriv).
Proof.
  intros G HK HD HV KO Hz E HB.
  destruct (synth_coeffs_spec x K D c time dim deriv e G HK ltac:(lia) (elems_ne _ _ HV)) as (_ & _ & _ & S4).
  assert (SO : some_outside x time) by (apply (outside_some x time idx HV); unfold beyond, outside in *; destruct right; tauto).
  destruct (S4 SO _ KO Hz) as (r' & E' & _ & _ & _ & V & W). rewrite E in E'. injection E' as <-.
  destruct right; [apply V; [exact HD|cbn in HB; lra]|apply W; [exact HD|exact HB]].
Qed.

(** derivatives of the end piece *)
Lemma end_deriv_is x K c right k d :
  is_derive_n (piece x K c (end_piece x right) d) k (end_of x right) (end_deriv x K c right k d).
Proof.
  pose proof (is_derive_n_poly K (fun r => c r (end_piece x right) d) (nth (end_piece x right) x 0) 1 k (end_of x right)) as P.
  apply (is_derive_n_ext (fun y => poly_eval K (fun r => c r (end_piece x right) d) 0 (1 * y - nth (end_piece x right) x 0))).
  { intros y. rewrite piece_poly, Rmult_1_l. reflexivity. }
  replace (end_deriv x K c right k d) with (1 ^ k * poly_eval K (fun r => c r (end_piece x right) d) k (1 * end_of x right - nth (end_piece x right) x 0)); [exact P|].
  rewrite pow1, !Rmult_1_l. unfold end_deriv, end_of, end_piece, last_break, first_break. destruct right; [reflexivity|].
  rewrite Rminus_diag_eq by reflexivity. reflexivity.
Qed.
Lemma end_deriv_high x K c right k d : (K <= k)%nat -> end_deriv x K c right k d = 0.
Proof. intros H. unfold end_deriv. destruct right; apply poly_eval_high; exact H. Qed.
Lemma end_deriv_0 x K c right d : end_deriv x K c right 0 d = piece x K c (end_piece x right) d (end_of x right).
Proof.
  pose proof (end_deriv_is x K c right 0 d) as H. cbn [is_derive_n] in H. symmetry. exact H.
Qed.

(** bin_value is the value of the derivatives of the extrapolating polynomial *)
Lemma bin_is_derive x K c right key nu d t :
  is_derive_n (fun y => bin_value x K c right key 0 d (365.25 * y)) nu (t / 365.25) (bin_value x K c right key nu d t * 365.25 ^ nu).
Proof.
  set (e := if right then last_break x else first_break x).
  assert (B : forall m u, bin_value x K c right key m d u = poly_eval key (fun r => end_deriv x K c right (key - 1 - r) d) m (u - e)).
  { intros m u. unfold bin_value. fold e. rewrite poly_eval_full. apply Rsum_seq_ext. intros k Hk.
    replace (key - 1 - (key - 1 - k))%nat with k by lia. reflexivity. }
  apply (is_derive_n_ext (fun y => poly_eval key (fun r => end_deriv x K c right (key - 1 - r) d) 0 (365.25 * y - e))).
  { intros y. symmetry. apply B. }
  rewrite B. pose proof (is_derive_n_poly key (fun r => end_deriv x K c right (key - 1 - r) d) e 365.25 nu (t / 365.25)) as P.
  rewrite year_day in P. rewrite Rmult_comm. exact P.
Qed.

Lemma C41_constant x K D c time dim deriv e r idx d right :
  good_breaks x -> (1 <= K)%nat -> (d < D)%nat -> valid (sh time) idx ->
  e = XStr "constant" \/ e = XInt 1 ->
  synth_coeffs (model x K D c) time dim deriv e = Ok r ->
  beyond x right (at_ time idx) ->
  s_at r idx d = Some (match deriv with None | Some O => piece x K c (end_piece x right) d (end_of x right) | Some (S _) => 0 end).
Proof.
  intros G HK HD HV HE E HB.
  assert (KO : key_of K e = Ok 1%Z).
  { unfold key_of. destruct HE as [ -> | -> ]; cbn; f_equal; lia. }
  rewrite (ext_value x K D c time dim deriv e r idx d right 1 G HK HD HV KO ltac:(lia) E HB). f_equal.
  unfold bin_value. change (Z.to_nat 1) with 1%nat. cbn [seq map]. rewrite Rsum_cons. change (Rsum []) with 0.
  assert (A : nu_of deriv = 0%nat -> (end_deriv x K c right 0 d * INR (falling 0 (nu_of deriv)) * (at_ time idx - (if right then last_break x else first_break x)) ^ (0 - nu_of deriv) + 0) * 365.25 ^ nu_of deriv = piece x K c (end_piece x right) d (end_of x right)).
  { intros ->. cbn [falling Nat.sub]. change (INR 1) with 1. rewrite !pow_O, <- end_deriv_0. ring. }
  destruct deriv as [[|n]|]; [apply A; reflexivity| |apply A; reflexivity].
  cbn [nu_of falling Nat.mul INR]. ring.
Qed.

Lemma C41_linear x K D c time dim deriv e r idx d right :
  good_breaks x -> (1 <= K)%nat -> (d < D)%nat -> valid (sh time) idx ->
  e = XNone \/ e = XBool true \/ e = XStr "linear" \/ e = XInt 2 ->
  synth_coeffs (model x K D c) time dim deriv e = Ok r ->
  beyond x right (at_ time idx) ->
  exists slope v,
    is_derive (piece x K c (end_piece x right) d) (end_of x right) slope /\
    s_at r idx d = Some v /\
    is_derive_n (fun year => tangent (piece x K c (end_piece x right) d) (end_of x right) slope (365.25 * year))
      (match deriv with None => 0%nat | Some n => n end) (at_ time idx / 365.25) v.
Proof.
  intros G HK HD HV HE E HB.
  assert (KO : key_of K e = Ok (Z.min 2 (Z.of_nat K))).
  { unfold key_of. destruct HE as [ -> | [ -> | [ -> | -> ] ] ]; cbn; reflexivity. }
  exists (end_deriv x K c right 1 d). eexists. split; [exact (end_deriv_is x K c right 1 d)|].
  split; [exact (ext_value x K D c time dim deriv e r idx d right _ G HK HD HV KO ltac:(lia) E HB)|].
  eapply is_derive_n_ext; [|apply bin_is_derive]. intros y. unfold bin_value, tangent. rewrite <- end_deriv_0. fold (end_of x right).
  destruct (Nat.eq_dec K 1) as [ -> |NK].
  - change (Z.to_nat (Z.min 2 (Z.of_nat 1))) with 1%nat. cbn [seq map]. rewrite Rsum_cons. change (Rsum []) with 0.
    rewrite (end_deriv_high x 1 c right 1) by lia. cbn [falling Nat.sub]. change (INR 1) with 1. rewrite pow_O. 
    match goal with |- ?A = ?B => change (@eq R A B) end. ring.
  - replace (Z.to_nat (Z.min 2 (Z.of_nat K))) with 2%nat by lia. cbn [seq map]. rewrite !Rsum_cons. change (Rsum []) with 0.
    cbn [falling Nat.sub]. change (INR 1) with 1. rewrite pow_O, pow_1. 
    match goal with |- ?A = ?B => change (@eq R A B) end. ring.
Qed.

(** Exact behaviour of polynomial extrapolation: the powers are not divided by factorials. *)
Lemma C42_exact x K D c time dim e r idx d right key :
  good_breaks x -> (1 <= K)%nat -> (d < D)%nat -> valid (sh time) idx ->
  e = XStr "spline" /\ key = K \/ e = XStr "quadratic" /\ key = Nat.min 3 K \/ e = XStr "cubic" /\ key = Nat.min 4 K ->
  synth_coeffs (model x K D c) time dim None e = Ok r ->
  beyond x right (at_ time idx) ->
  exists f : nat -> R,
    (forall k, is_derive_n (piece x K c (end_piece x right) d) k (end_of x right) (f k)) /\
    s_at r idx d = Some (fold_right Rplus 0 (map (fun k => f k * (at_ time idx - end_of x right) ^ k) (seq 0 key))).
Proof.
  intros G HK HD HV HE E HB.
  assert (KO : key_of K e = Ok (Z.of_nat key)).
  { unfold key_of. destruct HE as [ [ -> -> ] | [ [ -> -> ] | [ -> -> ] ] ]; cbn [extrap_key String.eqb Ascii.eqb Bool.eqb bind]; f_equal; lia. }
  exists (fun k => end_deriv x K c right k d). split; [intros k; apply end_deriv_is|].
  rewrite (ext_value x K D c time dim None e r idx d right _ G HK HD HV KO ltac:(lia) E HB). f_equal.
  cbn [nu_of]. rewrite pow_O, Rmult_1_r. unfold bin_value. fold (end_of x right). rewrite Nat2Z.id. apply Rsum_seq_ext. intros k _.
  cbn [falling]. change (INR 1) with 1. rewrite Nat.sub_0_r. ring.
Qed.

Lemma C42_low_order x K D c time dim e r idx d right :
  good_breaks x -> (1 <= K <= 2)%nat -> (d < D)%nat -> valid (sh time) idx ->
  e = XStr "spline" \/ e = XStr "quadratic" \/ e = XStr "cubic" ->
  synth_coeffs (model x K D c) time dim None e = Ok r ->
  beyond x right (at_ time idx) ->
  s_at r idx d = Some (piece x K c (end_piece x right) d (at_ time idx)).
Proof.
  intros G HK HD HV HE E HB.
  assert (KO : key_of K e = Ok (Z.of_nat K)).
  { unfold key_of. destruct HE as [ -> | [ -> | -> ] ]; cbn [extrap_key String.eqb Ascii.eqb Bool.eqb bind]; f_equal; lia. }
  rewrite (ext_value x K D c time dim None e r idx d right _ G ltac:(lia) HD HV KO ltac:(lia) E HB). f_equal.
  cbn [nu_of]. rewrite pow_O, Rmult_1_r. unfold bin_value. fold (end_of x right). rewrite Nat2Z.id.
  set (i := end_piece x right). set (t := at_ time idx).
  assert (E0 : end_deriv x K c right 0 d = piece x K c i d (end_of x right)) by apply end_deriv_0.
  assert (HP : forall k, end_deriv x K c right k d = poly_eval K (fun r => c r i d) k (end_of x right - nth i x 0)).
  { intros k. unfold end_deriv, i, end_of, end_piece, first_break. destruct right; [reflexivity|]. rewrite Rminus_diag_eq; reflexivity. }
  rewrite piece_poly. assert (HK' : K = 1%nat \/ K = 2%nat) by lia. destruct HK' as [ -> | -> ].
  - cbn [seq map]. rewrite Rsum_cons. change (Rsum []) with 0. rewrite HP. unfold poly_eval. cbn. ring.
  - cbn [seq map]. rewrite !Rsum_cons. change (Rsum []) with 0. rewrite !HP. unfold poly_eval. cbn. ring.
Qed.

(** ** Witness model: one piece [0, 1], polynomial s^2 (resp. s) *)
Definition wx : list R := [0; 1].
Lemma wx_good : good_breaks wx.
Proof. split; [cbn; lia|]. intros i Hi. cbn in Hi. assert (i = 0%nat) by lia. subst. cbn. lra. Qed.
Definition wsq : nat -> nat -> nat -> R := fun r _ _ => match r with O => 1 | _ => 0 end.

Lemma C42_false : exists x K D c time r,
  good_breaks x /\ (1 <= K)%nat /\ (1 <= D)%nat /\
  synth_coeffs (model x K D c) time None None (XStr "spline") = Ok r /\ valid (sh time) [0%nat] /\ beyond x true (at_ time [0%nat]) /\
  s_at r [0%nat] 0 <> Some (piece x K c (List.length x - 2) 0 (at_ time [0%nat])).
Proof.
  destruct (C39_ok wx 3 1 wsq (vec 0 [2]) None None (XStr "spline") wx_good ltac:(lia) ltac:(lia)) as (r & E & _ & _).
  - cbn. discriminate.
  - intros s Es. injection Es as <-. unfold documented. cbn. tauto.
  - exists wx, 3%nat, 1%nat, wsq, (vec 0 [2]), r. split; [exact wx_good|]. split; [lia|]. split; [lia|]. split; [exact E|].
    assert (V : valid (sh (vec 0 [2])) [0%nat]) by (constructor; [cbn; lia|constructor]).
    assert (B : beyond wx true (at_ (vec 0 [2]) [0%nat])) by (cbn; unfold last_break; cbn; lra).
    split; [exact V|]. split; [exact B|].
    assert (KO : key_of 3 (XStr "spline") = Ok 3%Z) by reflexivity.
    rewrite (ext_value wx 3 1 wsq (vec 0 [2]) None None _ r [0%nat] 0 true _ wx_good ltac:(lia) ltac:(lia) V KO ltac:(lia) E B).
    unfold bin_value, end_deriv, last_break, piece, wsq. cbn. intros H. injection H as H. lra.
Qed.

Lemma C43_false : exists x K D c t1 t2 r1 r2,
  good_breaks x /\ (1 <= K)%nat /\ (1 <= D)%nat /\
  synth_coeffs (model x K D c) (vec 0 [t1; t2]) None (Some 1%nat) (XStr "constant") = Ok r1 /\
  synth_coeffs (model x K D c) (vec 0 [t1]) None (Some 1%nat) (XStr "constant") = Ok r2 /\
  s_at r1 [0%nat] 0 <> s_at r2 [0%nat] 0.
Proof.
  set (e := XStr "constant"). assert (HD : forall s, e = XStr s -> In s documented) by (intros s Es; injection Es as <-; unfold documented; cbn; tauto).
  destruct (C39_ok wx 2 1 wsq (vec 0 [1; 2]) None (Some 1%nat) e wx_good ltac:(lia) ltac:(lia) ltac:(cbn; discriminate) HD) as (r1 & E1 & _ & _).
  destruct (C39_ok wx 2 1 wsq (vec 0 [1]) None (Some 1%nat) e wx_good ltac:(lia) ltac:(lia) ltac:(cbn; discriminate) HD) as (r2 & E2 & _ & _).
  exists wx, 2%nat, 1%nat, wsq, 1, 2, r1, r2. split; [exact wx_good|]. split; [lia|]. split; [lia|]. split; [exact E1|]. split; [exact E2|].
  assert (SO : some_outside wx (vec 0 [1; 2])) by (exists 2; split; [cbn; tauto|right; unfold last_break; cbn; lra]).
  assert (NO : ~ some_outside wx (vec 0 [1])).
  { intros (t & [ <- |[]] & Ho). unfold outside, first_break, last_break in Ho. cbn in Ho. lra. }
  destruct (synth_coeffs_spec wx 2 1 wsq (vec 0 [1; 2]) None (Some 1%nat) e wx_good ltac:(lia) ltac:(lia) ltac:(cbn; discriminate)) as (_ & _ & _ & S4).
  destruct (S4 SO 1%Z eq_refl ltac:(lia)) as (r1' & E1' & _ & _ & _ & V1 & _). rewrite E1 in E1'. injection E1' as <-.
  destruct (synth_coeffs_spec wx 2 1 wsq (vec 0 [1]) None (Some 1%nat) e wx_good ltac:(lia) ltac:(lia) ltac:(cbn; discriminate)) as (S1 & _).
  destruct (S1 NO) as (r2' & E2' & _ & _ & V2). rewrite E2 in E2'. injection E2' as <-.
  rewrite (V1 [0%nat] 0%nat ltac:(lia)) by (unfold last_break; cbn; lra).
  rewrite (V2 [0%nat] 0%nat 0%nat ltac:(lia)).
  - unfold bin_value, end_deriv, poly_eval. cbn. intros H. injection H as H. lra.
  - split; [cbn; lia|]. cbn. split; [lra|right; split; [reflexivity|lra]].
Qed.

(** values agree with a call with a single time, away from the last break *)
Lemma C43_part x K D c time dim deriv e r r1 idx d :
  good_breaks x -> (1 <= K)%nat -> (d < D)%nat -> valid (sh time) idx ->
  synth_coeffs (model x K D c) time dim deriv e = Ok r ->
  synth_coeffs (model x K D c) (scalar (at_ time idx)) dim deriv e = Ok r1 ->
  (deriv = None \/ deriv = Some 0%nat \/ at_ time idx <> last_break x) ->
  s_at r idx d = s_at r1 [] d.
Proof.
  intros G HK HD HV E E1 HC. set (t := at_ time idx) in *.
  assert (V1 : valid (sh (scalar t)) []) by constructor.
  destruct (Rlt_dec t (first_break x)) as [Q|Q]; [|destruct (Rlt_dec (last_break x) t) as [Q'|Q']].
  3:{ destruct (in_interval_ex x t G ltac:(lra)) as [i Hi].
      assert (HC' : nu_of deriv = 0%nat \/ t <> last_break x) by (destruct HC as [ -> | [ -> | HC ] ]; [left|left|right]; try reflexivity; exact HC).
      rewrite (inside_value x K D c time dim deriv e r idx i d G HK HD HV E Hi) by (fold t; tauto).
      rewrite (inside_value x K D c (scalar t) dim deriv e r1 [] i d G HK HD V1 E1 Hi) by (cbn [at_ scalar]; tauto). reflexivity. }
  all: destruct (key_of K e) as [z|z] eqn:KO.
  2,4: exfalso; assert (EE : exists z, extrap_key (Z.of_nat K) e = Err z) by (unfold key_of in KO; destruct (extrap_key _ _); [discriminate|eexists; reflexivity]);
    destruct (synth_coeffs_spec x K D c time dim deriv e G HK ltac:(lia) (elems_ne _ _ HV)) as (_ & S2 & _);
    rewrite S2 in E; [discriminate|apply (outside_some x time idx HV); unfold outside; fold t; tauto|exact EE].
  all: destruct (Z.le_gt_cases z 0) as [L|L].
  1,3: assert (W : forall tm ii rr, valid (sh tm) ii -> synth_coeffs (model x K D c) tm dim deriv e = Ok rr -> outside x (at_ tm ii) -> s_at rr ii d = None);
    [intros tm ii rr Hv Er Ho; destruct (synth_coeffs_spec x K D c tm dim deriv e G HK ltac:(lia) (elems_ne _ _ Hv)) as (_ & _ & S3 & _);
     destruct (S3 (outside_some x tm ii Hv Ho) _ KO L) as (r' & E' & _ & _ & _ & WW); rewrite Er in E'; injection E' as <-; exact (WW ii d Ho)|];
    rewrite (W time idx r HV E) by (unfold outside; fold t; tauto); rewrite (W (scalar t) [] r1 V1 E1) by (unfold outside; cbn [at_ scalar]; tauto); reflexivity.
  - rewrite (ext_value x K D c time dim deriv e r idx d false z G HK HD HV KO L E Q).
    rewrite (ext_value x K D c (scalar t) dim deriv e r1 [] d false z G HK HD V1 KO L E1 Q). reflexivity.
  - rewrite (ext_value x K D c time dim deriv e r idx d true z G HK HD HV KO L E Q').
    rewrite (ext_value x K D c (scalar t) dim deriv e r1 [] d true z G HK HD V1 KO L E1 Q'). reflexivity.
Qed.

(** ** C44 *)
Lemma C44_rows breaks order (c : c3) : (1 <= c_k c)%nat -> (1 <= order)%nat ->
  let b := base_init breaks (Some (Z.of_nat order)) (Some c) in
  exists c', b_coeffs b = Some c' /\ c_k c' = Nat.min order (c_k c) /\ b_order b = Some (Z.of_nat (Nat.min order (c_k c))) /\
    c_m c' = c_m c /\ c_d c' = c_d c /\ b_dim b = Some (c_d c) /\
    forall r i d, (r < c_k c')%nat -> c_v c' r i d = c_v c (c_k c - Nat.min order (c_k c) + r)%nat i d.
Proof.
  intros H1 H2 b. unfold b, base_init. cbn [b_coeffs b_order b_dim]. eexists. split; [reflexivity|]. unfold take_last. cbn [c_k c_m c_d c_v].
  destruct (Z.eqb_spec (Z.min (Z.of_nat order) (Z.of_nat (c_k c))) 0); [lia|].
  destruct (Z.ltb_spec 0 (Z.min (Z.of_nat order) (Z.of_nat (c_k c)))); [|lia].
  split; [lia|]. split; [f_equal; lia|]. split; [reflexivity|]. split; [reflexivity|]. split; [reflexivity|].
  intros r i d Hr. f_equal. lia.
Qed.
Lemma C44_single b order coeffs : b_breaks (base_init (Some [b]) order coeffs) = Some [b; b] /\
  b_pieces (base_init (Some [b]) order coeffs) = Some 1%Z.
Proof. unfold base_init. destruct coeffs; split; reflexivity. Qed.
Lemma C44_empty breaks order time dim deriv e : synth_coeffs (base_init breaks order None) time dim deriv e = Err ValueError.
Proof. unfold base_init, synth_coeffs. cbn. reflexivity. Qed.

(** A static model: one row, one break. *)
Lemma C44_static b0 D c time dim deriv e idx d r : (d < D)%nat -> valid (sh time) idx ->
  synth_coeffs (base_init (Some [b0]) None (Some (mkc3 1 1 D c))) time dim deriv e = Ok r ->
  s_at r idx d = Some (match deriv with None | Some O => c 0%nat 0%nat d | Some (S _) => 0 end) \/
  (at_ time idx <> b0 /\ (exists z, extrap_key 1 e = Ok z /\ (z <= 0)%Z) /\ s_at r idx d = None).
Proof.
  intros HD HV. unfold base_init, synth_coeffs. cbn [b_coeffs b_breaks b_dim b_order c_k c_m c_d c_v take_last].
  change (Z.of_nat 1) with 1%Z. cbn [Z.eqb Z.ltb Z.compare Z.max Z.sub Z.to_nat Nat.sub Nat.eqb orb Z.add Z.opp Pos.compare Pos.compare_cont Z.pos_sub].
  destruct (Nat.eqb_spec D 0); [lia|]. cbn [orb].
  set (cc := fun (r i d : nat) => c (r + 0)%nat i d).
  set (nu := match deriv with None => 0%nat | Some n => n end).
  set (v := match deriv with None | Some O => c 0%nat 0%nat d | Some (S _) => 0 end).
  assert (VAL : forall row s, row 0%nat = c 0%nat 0%nat d -> poly_eval 1 row nu s * 365.25 ^ nu = v).
  { intros row s Hr. unfold v, nu, poly_eval. destruct deriv as [[|m]|]; cbn [Nat.sub seq map fold_left falling]; rewrite ?Hr; change (INR 1) with 1; rewrite ?pow_O; ring. }
  destruct (amin (elems time)) as [mn|]; [|discriminate]. destruct (amax (elems time)) as [mx|]; [|discriminate]. cbn [bind nth List.length Nat.sub].
  assert (INT : forall x K cf (ex : bool) t i, interval (mkpp x K cf ex) t = Some i -> True) by trivial.
  destruct (if Rlt_dec mn b0 then true else _).
  - assert (EK : extrap_key 1 (match e with XNone => XStr "linear" | _ => e end) = extrap_key 1 e) by (destruct e; reflexivity).
    rewrite EK. clear EK. destruct (extrap_key 1 e) as [z|]; [|discriminate]. cbn [bind].
    destruct (Z.ltb_spec 0 (Z.min z 1)) as [L|L].
    + assert (Z1 : Z.min z 1 = 1%Z) by lia. rewrite Z1. change (Z.to_nat 1) with 1%nat.
      unfold pp_extend at 1. cbn [p_x List.length Nat.sub nth]. destruct (Rle_dec b0 b0) as [_|N]; [|lra]. cbn [bind].
      unfold pp_extend. cbn [p_x List.length Nat.sub nth app]. destruct (Rle_dec b0 b0) as [_|N]; [|lra]. cbn [bind].
      intros E. injection E as <-. left. cbn [s_at]. rewrite pp_deriv_eval.
      assert (F0 : forall p, p_x p = [b0; b0] -> p_k p = 1%nat -> p_ext p = true -> p_c p = cc -> forall u, pp_eval p 0 u d = Some (c 0%nat 0%nat d)).
      { intros p Hx Hk He Hc u. unfold pp_eval, interval. rewrite Hx, He, Hk, Hc. cbn [nth List.length Nat.sub].
        assert (PE : forall s, poly_eval 1 (fun r => cc r 0%nat d) 0 s = c 0%nat 0%nat d) by (intros s; unfold poly_eval, cc; cbn; ring).
        destruct (Rlt_dec u b0); [rewrite PE; reflexivity|]. destruct (Rlt_dec b0 u); [rewrite PE; reflexivity|]. destruct (Req_EM_T u b0); [rewrite PE; reflexivity|]. lra. }
      set (P0 := mkpp [b0; b0] 1 cc true).
      set (B1 := make_bin P0 1 1 b0).
      assert (HB1 : B1 0%nat d = c 0%nat 0%nat d) by (unfold B1, make_bin; cbn [Nat.ltb Nat.leb andb Nat.sub]; rewrite (F0 P0); reflexivity).
      set (P1 := mkpp [b0; b0; b0] 1 (fun r i d0 => if (i <? 1)%nat then p_c P0 r i d0 else B1 r d0) true).
      assert (F1 : pp_eval P1 0 b0 d = Some (c 0%nat 0%nat d)).
      { unfold pp_eval, interval, P1. cbn [p_x p_ext p_k p_c nth List.length Nat.sub Nat.ltb Nat.leb].
        destruct (Rlt_dec b0 b0); [lra|]. destruct (Req_EM_T b0 b0); [|lra]. f_equal. unfold poly_eval. cbn [Nat.sub seq map fold_left falling Nat.ltb Nat.leb]. rewrite HB1. cbn. ring. }
      set (B2 := make_bin P1 1 1 b0).
      assert (HB2 : B2 0%nat d = c 0%nat 0%nat d) by (unfold B2, make_bin; cbn [Nat.ltb Nat.leb andb Nat.sub]; rewrite F1; reflexivity).
      set (P2 := mkpp [b0; b0; b0; b0] 1 (fun r i d0 => if (i <? 2)%nat then p_c P1 r i d0 else B2 r d0) true).
      change (option_map (fun v0 => v0 * 365.25 ^ nu) (pp_eval P2 nu (at_ time idx) d) = Some v).
      unfold pp_eval, interval, P2. cbn [p_x p_ext p_k p_c nth List.length Nat.sub].
      destruct (Rlt_dec (at_ time idx) b0); [cbn [option_map]; f_equal; apply VAL; reflexivity|].
      assert (R2 : poly_eval 1 (fun r => if (2 <? 2)%nat then p_c P1 r 2%nat d else B2 r d) nu (at_ time idx - b0) * 365.25 ^ nu = v) by (apply VAL; exact HB2).
      destruct (Rlt_dec b0 (at_ time idx)); [cbn [option_map]; f_equal; exact R2|]. destruct (Req_EM_T (at_ time idx) b0); [cbn [option_map]; f_equal; exact R2|]. lra.
    + cbn [bind p_x p_k p_c]. intros E. injection E as <-. cbn [s_at]. rewrite pp_deriv_eval. unfold pp_eval, interval. cbn [p_x p_ext p_k p_c nth List.length Nat.sub].
      destruct (Rlt_dec (at_ time idx) b0); [right; split; [lra|split; [exists z; split; [reflexivity|lia]|reflexivity]]|].
      destruct (Rlt_dec b0 (at_ time idx)); [right; split; [lra|split; [exists z; split; [reflexivity|lia]|reflexivity]]|].
      destruct (Req_EM_T (at_ time idx) b0); [|lra]. left. cbn [option_map]. f_equal. apply VAL. reflexivity.
  - cbn [bind]. intros E. injection E as <-. left. cbn [s_at]. rewrite pp_deriv_eval. unfold pp_eval, interval. cbn [p_x p_ext p_k p_c nth List.length Nat.sub].
    destruct (Rlt_dec (at_ time idx) b0); [cbn [option_map]; f_equal; apply VAL; reflexivity|].
    destruct (Rlt_dec b0 (at_ time idx)); [cbn [option_map]; f_equal; apply VAL; reflexivity|].
    destruct (Req_EM_T (at_ time idx) b0); [cbn [option_map]; f_equal; apply VAL; reflexivity|]. lra.
Qed.

(** ** C45 *)
Lemma C45_part x K D c time dim deriv s t : good_breaks x -> (1 <= K)%nat -> (1 <= D)%nat ->
  In t (elems time) -> outside x t -> ~ In s documented ->
  synth_coeffs (model x K D c) time dim deriv (XStr s) = Err ValueError.
Proof.
  intros G HK HD Ht Ho Hs. destruct (synth_coeffs_spec x K D c time dim deriv (XStr s) G HK HD) as (_ & S2 & _).
  - intros E. rewrite E in Ht. exact Ht.
  - apply S2; [exists t; split; assumption|]. apply extrap_key_err. exists s. split; [reflexivity|exact Hs].
Qed.
Lemma C45_false : exists x K D c time r, good_breaks x /\ (1 <= K)%nat /\ (1 <= D)%nat /\ ~ In "cubik"%string documented /\
  synth_coeffs (model x K D c) time None None (XStr "cubik") = Ok r.
Proof.
  destruct (synth_coeffs_spec wx 2 1 wsq (vec 0 [1]) None None (XStr "cubik") wx_good ltac:(lia) ltac:(lia) ltac:(cbn; discriminate)) as (S1 & _).
  destruct S1 as (r & E & _).
  - intros (t & [ <- |[]] & Ho). unfold outside, first_break, last_break in Ho. cbn in Ho. lra.
  - exists wx, 2%nat, 1%nat, wsq, (vec 0 [1]), r. split; [exact wx_good|]. split; [lia|]. split; [lia|]. split; [|exact E].
    unfold documented. cbn. intros H. repeat destruct H as [H|H]; try discriminate. exact H.
Qed.
