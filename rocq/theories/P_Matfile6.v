(** Models with the same coefficient arrays give the same results. *)
From Coq Require Import Reals List Arith ZArith String Bool Lia Lra.
From Verif Require Import M_Prelude M_ND Spec_Field Spec_PP M_Synth M_SynthArr M_PP M_Spectrum M_Model M_Chaos M_Matfile Spec_Matfile P_ND P_Spline P_PP P_SHC2 P_SHCModel P_Model2 P_Chaos P_Chaos4 P_Matfile.
Import ListNotations.
Open Scope R_scope.

(** results of synth_coeffs: the same exception, or the same array *)
Definition same_cres (u v : result cres) : Prop :=
  match u, v with
  | Ok r, Ok s => s_sh r = s_sh s /\ s_dim r = s_dim s /\ forall idx d, (d < s_dim r)%nat -> s_at r idx d = s_at s idx d
  | Err e, Err e' => e = e'
  | _, _ => False
  end.

Definition same_pp (D : nat) (p q : ppoly) : Prop :=
  p_x p = p_x q /\ p_k p = p_k q /\ p_ext p = p_ext q /\ (2 <= List.length (p_x p))%nat /\
  forall r i d, (r < p_k p)%nat -> (i < List.length (p_x p) - 1)%nat -> (d < D)%nat -> p_c p r i d = p_c q r i d.

Lemma poly_eval_rows K f g nu s : (forall r, (r < K)%nat -> f r = g r) -> poly_eval K f nu s = poly_eval K g nu s.
Proof.
  intros H. unfold poly_eval. f_equal. apply map_ext_in. intros k Hk. apply in_seq in Hk. rewrite H by lia. reflexivity.
Qed.

Lemma scan_last x v i : (2 <= List.length x)%nat -> v < nth (List.length x - 1) x 0 -> (scan x v i < i + (List.length x - 1))%nat.
Proof.
  revert i. induction x as [|a x IH]; intros i H HV; [cbn in H; lia|]. destruct x as [|b x]; [cbn in H; lia|].
  change (scan (a :: b :: x) v i) with (if Rlt_dec v b then i else scan (b :: x) v (S i)). destruct (Rlt_dec v b); [cbn [List.length]; lia|]. destruct x as [|c x]; [cbn in HV; lra|].
  specialize (IH (S i) ltac:(cbn [List.length]; lia)). replace (List.length (a :: b :: c :: x) - 1)%nat with (S (List.length (b :: c :: x) - 1)) in HV |- * by (cbn [List.length]; lia).
  cbn [nth] in HV. specialize (IH HV). lia.
Qed.

Lemma interval_bound p v i : (2 <= List.length (p_x p))%nat -> interval p v = Some i -> (i < List.length (p_x p) - 1)%nat.
Proof.
  intros H. unfold interval. destruct (Rlt_dec v _); [destruct (p_ext p); intros E; [injection E as <-; lia|discriminate]|].
  destruct (Rlt_dec _ v); [destruct (p_ext p); intros E; [injection E as <-; lia|discriminate]|].
  destruct (Req_EM_T v _) as [|N]; intros E; injection E as <-; [lia|]. apply (scan_last _ v 0 H). lra.
Qed.

Lemma same_eval D p q nu v d : same_pp D p q -> (d < D)%nat -> pp_eval p nu v d = pp_eval q nu v d.
Proof.
  intros (X & K & T & L & C) Hd. unfold pp_eval.
  assert (I : interval p v = interval q v) by (unfold interval; rewrite X, T; reflexivity). rewrite <- I, <- K, <- X.
  destruct (interval p v) as [i|] eqn:E; [|reflexivity]. apply interval_bound in E; [|exact L].
  f_equal. apply poly_eval_rows. intros r Hr. apply C; assumption.
Qed.

Lemma same_deriv D p q nu : same_pp D p q -> same_pp D (pp_deriv p nu) (pp_deriv q nu).
Proof.
  intros S. pose proof S as (X & K & T & L & C). unfold pp_deriv. rewrite <- K, <- X, <- T. destruct (Nat.leb_spec (p_k p) nu).
  - destruct (Nat.eqb_spec nu 0); [exact S|]. repeat (split; [reflexivity|]). split; [exact L|]. reflexivity.
  - repeat (split; [reflexivity|]). split; [exact L|]. cbn. intros r i d Hr Hi Hd. rewrite C by (try assumption; lia). reflexivity.
Qed.

Definition rsame (D : nat) (u v : result ppoly) : Prop :=
  match u, v with Ok u, Ok v => same_pp D u v | Err e, Err e' => e = e' | _, _ => False end.

Lemma same_bind D u v f g : rsame D u v -> (forall P Q, same_pp D P Q -> same_cres (f P) (g Q)) -> same_cres (bind u f) (bind v g).
Proof. destruct u, v; cbn; intros H1 H2; try contradiction; auto. Qed.
Lemma rsame_bind D u v f g : rsame D u v -> (forall P Q, same_pp D P Q -> rsame D (f P) (g Q)) -> rsame D (bind u f) (bind v g).
Proof. destruct u, v; cbn; intros H1 H2; try contradiction; auto. Qed.

Lemma same_extend D p q b b' x : same_pp D p q -> (forall r d, (r < p_k p)%nat -> (d < D)%nat -> b r d = b' r d) ->
  rsame D (pp_extend p b x) (pp_extend q b' x).
Proof.
  intros S HB. unfold rsame. pose proof S as (X & K & T & L & C). unfold pp_extend. rewrite <- K, <- X, <- T.
  destruct (Rle_dec _ x) as [RL|RL].
  - repeat (split; [reflexivity|]). cbn [p_x p_k p_c]. rewrite app_length. cbn [List.length]. split; [lia|]. intros r i d Hr Hi Hd.
    destruct (Nat.ltb_spec i (List.length (p_x p) - 1)); [apply C; assumption|apply HB; assumption].
  - destruct (Rle_dec x _) as [RM|RM]; [|reflexivity]. repeat (split; [reflexivity|]). cbn [p_x p_k p_c List.length]. split; [lia|]. intros r i d Hr Hi Hd.
    destruct (Nat.eqb_spec i 0); [apply HB; assumption|apply C; [assumption|lia|assumption]].
Qed.

Lemma same_bin D p q o key x r d : same_pp D p q -> (d < D)%nat -> make_bin p o key x r d = make_bin q o key x r d.
Proof. intros S Hd. unfold make_bin. rewrite (same_eval D p q _ x d S Hd). reflexivity. Qed.

Lemma same_synth a b x k : full_base a x k -> same_base a b -> forall time dim deriv e, same_cres (synth_coeffs a time dim deriv e) (synth_coeffs b time dim deriv e).
Proof.
  intros [F1 F2 F3 F4 F5 F6 F7 F8] (B1 & _ & B3 & B4 & B5) time dim deriv e. unfold synth_coeffs.
  rewrite F3 in B5. destruct (b_coeffs b) as [k'|]; [|contradiction]. destruct B5 as (C1 & C2 & C3 & C4).
  rewrite <- B1, <- B3, <- B4, F1, F3, F4, F8, <- C1, <- C2, <- C3.
  destruct ((c_k k =? 0) || (c_m k =? 0) || (c_d k =? 0))%nat%bool; [exact eq_refl|].
  set (dm := match dim with None => c_d k | Some n => if (c_d k <? n)%nat then c_d k else n end).
  assert (DM : (dm <= c_d k)%nat) by (unfold dm; destruct dim as [n|]; [destruct (Nat.ltb_spec (c_d k) n); lia|lia]).
  assert (SP : same_pp (c_d k) (mkpp x (c_k k) (c_v k) true) (mkpp x (c_k k) (c_v k') true)).
  { repeat (split; [reflexivity|]). split; [exact F2|]. intros r i d Hr Hi Hd. cbn in *. apply C4; [exact Hr|lia|exact Hd]. }
  assert (FIN : forall P Q, same_pp (c_d k) P Q ->
     same_cres (Ok (mkcres (sh time) dm (fun i d => option_map (fun v => v * 365.25 ^ match deriv with None => 0%nat | Some n => n end) (pp_eval (pp_deriv P match deriv with None => 0%nat | Some n => n end) 0 (at_ time i) d))))
               (Ok (mkcres (sh time) dm (fun i d => option_map (fun v => v * 365.25 ^ match deriv with None => 0%nat | Some n => n end) (pp_eval (pp_deriv Q match deriv with None => 0%nat | Some n => n end) 0 (at_ time i) d))))).
  { intros P Q HPQ. cbn. split; [reflexivity|]. split; [reflexivity|]. intros idx d Hd. rewrite (same_eval (c_d k) _ _ 0 _ d (same_deriv _ _ _ _ HPQ)) by lia. reflexivity. }
  destruct x as [|s0 x]; [cbn in F2; lia|].
  destruct (amin (elems time)) as [mn|]; [|exact eq_refl]. destruct (amax (elems time)) as [mx|]; [|exact eq_refl]. cbn [bind].
  apply (same_bind (c_d k)); [|exact FIN]. destruct (if Rlt_dec mn s0 then true else _); [|exact SP].
  destruct (extrap_key _ _) as [z|]; [|exact eq_refl]. cbn [bind].
  destruct (0 <? Z.min z (Z.of_nat (c_k k)))%Z.
  - apply rsame_bind.
    + apply same_extend; [exact SP|]. intros; apply (same_bin (c_d k)); assumption.
    + intros P Q HPQ. apply same_extend; [exact HPQ|]. intros; apply (same_bin (c_d k)); assumption.
  - destruct SP as (X & K & T & L & C). repeat (split; [reflexivity|]). split; [exact L|]. exact C.
Qed.

(** ** Field values *)
Definition same_field (u v : result ofield) : Prop :=
  match u, v with
  | Ok F, Ok G => o_sh F = o_sh G /\ forall idx, valid (o_sh F) idx -> o_r F idx = o_r G idx /\ o_t F idx = o_t G idx /\ o_p F idx = o_p G idx
  | Err _, Err _ => True
  | _, _ => False
  end.

Lemma same_values oob a m m' x k : full_base (m_base m) x k -> (1 <= c_d k)%nat -> same_model m m' ->
  forall time radius theta phi nmax deriv grid e, nmax <> Some 0%nat -> (forall N, m_nmax m = Some N -> (1 <= N)%Z) ->
  same_field (model_values oob a m time radius theta phi nmax deriv grid e) (model_values oob a m' time radius theta phi nmax deriv grid e).
Proof.
  intros FB HD (S1 & S2 & S3) time radius theta phi nmax deriv grid e Hn HN. unfold model_values. rewrite <- S2. destruct (m_nmax m) as [N|].
  2:{ destruct nmax; exact I. }
  specialize (HN N eq_refl). set (n := match nmax with None => Z.to_nat N | Some n0 => if (N <? Z.of_nat n0)%Z then Z.to_nat N else n0 end).
  assert (Hn1 : (1 <= n)%nat).
  { unfold n. destruct nmax as [[|j]|]; [congruence| |lia]. destruct (N <? Z.of_nat (S j))%Z; lia. }
  unfold model_coeffs. cbn [option_map].
  pose proof (same_synth _ _ _ _ FB S1 time (Some (n * (n + 2))%nat) deriv e) as H.
  destruct (synth_coeffs (m_base m) time _ deriv e) as [r|] eqn:E1; destruct (synth_coeffs (m_base m') time _ deriv e) as [r'|]; try contradiction; [|exact I].
  destruct H as (H1 & H2 & H3). cbn [bind]. unfold nan_synth. rewrite <- S3, <- H1, <- H2.
  assert (D0 : (0 < s_dim r)%nat).
  { revert E1. unfold synth_coeffs. rewrite (fb_coeffs _ _ _ FB), (fb_breaks _ _ _ FB), (fb_dim _ _ _ FB), (fb_order _ _ _ FB).
    destruct ((c_k k =? 0) || (c_m k =? 0) || (c_d k =? 0))%nat%bool; [discriminate|]. destruct x; [discriminate|].
    intros E. do 3 (match type of E with bind ?u _ = _ => destruct u; [|discriminate] end; cbn [bind] in E). injection E as <-. cbn [s_dim].
    destruct (Nat.ltb_spec (c_d k) (n * (n + 2))); nia. }
  set (c := mkcarr (s_sh r) (s_dim r) (fun x k => match s_at r x k with Some v => v | None => 0 end)).
  set (c' := mkcarr (s_sh r) (s_dim r) (fun x k => match s_at r' x k with Some v => v | None => 0 end)).
  set (gd := match grid with None => false | Some g => g end).
  assert (CR : forall x, crow c x = crow c' x).
  { intros y. unfold crow. apply map_ext_in. intros d Hd. apply in_seq in Hd. destruct Hd as [_ Hd]. change (d < s_dim r)%nat in Hd. unfold c, c'. cbn [cat csh]. rewrite H3 by exact Hd. reflexivity. }
  destruct (synth_values oob a c radius theta phi None (Some (Z.of_nat n)) None (Some (m_source m)) gd) as [F|] eqn:EF.
  - destruct (sv_congr _ _ c c' _ _ _ _ _ _ _ _ _ EF eq_refl eq_refl) as (F2 & E2 & SH & V). rewrite E2. cbn [bind same_field o_sh o_r o_t o_p].
    split; [congruence|]. intros idx _. destruct (V idx (CR idx)) as (V1 & V2 & V3). rewrite <- H3 by exact D0. rewrite V1, V2, V3. repeat split.
  - destruct (synth_values oob a c' radius theta phi None (Some (Z.of_nat n)) None (Some (m_source m)) gd) as [F|] eqn:EF'; [|exact I].
    destruct (sv_congr _ _ c' c _ _ _ _ _ _ _ _ _ EF' eq_refl eq_refl) as (F2 & E2 & _). rewrite E2 in EF. discriminate.
Qed.
