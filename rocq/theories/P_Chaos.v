(** Magnetospheric coefficients: closed forms. *)
From Coq Require Import Reals List Arith ZArith String Ascii Bool Lia Lra.
From Coquelicot Require Import Complex.
From Verif Require Import M_Prelude M_ND Spec_Field Spec_PP Spec_Rotate Spec_Chaos M_SynthArr M_PP M_Spectrum M_Model M_Rotate M_Chaos
  P_ND P_Bcast P_Rotate P_PP.
Import ListNotations.
Open Scope R_scope.

(** ** Products *)
Lemma matvec_value M ts m n vsh v : sh M = ts ++ [m; n] -> vsh = [] \/ vsh = ts ->
  exists k, matvec M vsh n v = Ok k /\ csh k = ts /\ cdim k = m /\
    forall x i, valid ts x -> cat k x i = Rsum (map (fun j => at_ M (x ++ [i; j]) * v (bidx vsh x) j) (seq 0 n)).
Proof.
  intros E Hv. unfold matvec. rewrite E.
  replace (List.length (ts ++ [m; n]) - 2)%nat with (List.length ts) by (rewrite app_length; cbn; lia).
  rewrite firstn_app_len by reflexivity.
  assert (N1 : nth (S (List.length ts)) (ts ++ [m; n]) 0%nat = n).
  { rewrite app_nth2 by lia. replace (S (List.length ts) - List.length ts)%nat with 1%nat by lia. reflexivity. }
  assert (N0 : nth (List.length ts) (ts ++ [m; n]) 0%nat = m) by (rewrite app_nth2, Nat.sub_diag by lia; reflexivity).
  rewrite N1, N0, Nat.eqb_refl.
  assert (B : broadcast [ts; vsh] = Ok ts) by (destruct Hv as [-> | ->]; [apply broadcast_one_nil | apply broadcast_pair]).
  rewrite B. cbn [bind]. eexists. split; [reflexivity|]. cbn [csh cdim cat]. split; [reflexivity|]. split; [reflexivity|].
  intros x i V. rewrite (bidx_same ts x V). reflexivity.
Qed.

Lemma corner_shape M ts m n : sh M = ts ++ [m; n] -> sh (corner M) = ts ++ [Nat.min 3 m; Nat.min 3 n].
Proof.
  intros E. unfold corner. rewrite E. cbn [sh].
  replace (List.length (ts ++ [m; n]) - 2)%nat with (List.length ts) by (rewrite app_length; cbn; lia).
  rewrite firstn_app_len, skipn_app_len by reflexivity. reflexivity.
Qed.

(** ** Files *)

(** The shapes of a file with m x n matrices and [k] ([ki]) components, saved
    with doubled (that is: final) amplitudes. *)
Record rot_file (f : rotfile) (k ki m n : nat) : Prop := mkrotok {
  ro_freq : sh (rf_freq f) = [k; m; n]; ro_spec : sh (rf_spec f) = [k; m; n];
  ro_freqi : sh (rf_freq_ind f) = [ki; m; n]; ro_speci : sh (rf_spec_ind f) = [ki; m; n];
  ro_flag : is_False (rf_scaled f) = false }.

Definition file_rotation (f : rotfile) (k ki : nat) (s : src) (t : R) (r c : nat) : R :=
  match s with
  | External => rotation k (rf_freq f) (rf_spec f) t r c
  | Internal => rotation ki (rf_freq_ind f) (rf_spec_ind f) t r c
  end.

Lemma rotate_value time F (S : nd C) sc k m n : sh F = [k; m; n] -> sh S = [k; m; n] -> is_False sc = false ->
  exists M, synth_rotate_gauss time F S sc = Ok M /\ sh M = sh time ++ [m; n] /\
  forall i r c, valid (sh time) i -> (r < m)%nat -> (c < n)%nat -> at_ M (i ++ [r; c]) = rotation k F S (at_ time i) r c.
Proof.
  intros EF ES Hf. destruct (synth_rotate_value time F S sc k m n EF ES) as (M & E1 & E2 & E3).
  exists M. split; [exact E1|]. split; [exact E2|]. intros i r c Hi Hr Hc. rewrite E3 by assumption. unfold rotation.
  f_equal. apply map_ext. intros j. unfold weight. rewrite Hf. ring.
Qed.

Lemma file_value f k ki m n s time : rot_file f k ki m n ->
  exists M, synth_rotate_gauss time (match s with External => rf_freq f | Internal => rf_freq_ind f end)
              (match s with External => rf_spec f | Internal => rf_spec_ind f end) (rf_scaled f) = Ok M /\
  sh M = sh time ++ [m; n] /\
  forall i r c, valid (sh time) i -> (r < m)%nat -> (c < n)%nat -> at_ M (i ++ [r; c]) = file_rotation f k ki s (at_ time i) r c.
Proof.
  intros [F1 F2 F3 F4 F5]. destruct s.
  - destruct (rotate_value time _ _ _ _ _ _ F3 F4 F5) as (M & H). exists M. exact H.
  - destruct (rotate_value time _ _ _ _ _ _ F1 F2 F5) as (M & H). exists M. exact H.
Qed.

Lemma amin_ok l : l <> [] -> exists v, amin l = Ok v.
Proof. destruct l; [congruence|]. cbn. eauto. Qed.

Lemma lists_equal_refl l : lists_equal l l = true.
Proof. unfold lists_equal. destruct (list_eq_dec _ l l); congruence. Qed.
Lemma lists_equal_ne l l' : l <> l' -> lists_equal l l' = false.
Proof. unfold lists_equal. destruct (list_eq_dec _ l l'); congruence. Qed.

(** ** Degrees *)
Lemma sm_degree_exact l N : (List.length l = N * (N + 2))%nat -> sm_degree l = N.
Proof.
  intros E. unfold sm_degree, degree_of_size. rewrite E.
  replace (Z.of_nat (N * (N + 2)) + 1)%Z with ((Z.of_nat N + 1) * (Z.of_nat N + 1))%Z by (rewrite Nat2Z.inj_mul, Nat2Z.inj_add; lia).
  rewrite Z.sqrt_square by lia. lia.
Qed.
Lemma clip_min nmax N : clip_nmax nmax N = match nmax with None => N | Some n => Nat.min n N end.
Proof. destruct nmax as [n|]; unfold clip_nmax; [|reflexivity]. destruct (Nat.ltb_spec N n); lia. Qed.

Definition asked (nmax : option nat) (N : nat) : nat := match nmax with None => N | Some n => Nat.min n N end.

(** ** GSM *)
Lemma gsm_value E c f gsm k ki N time nmax s :
  ch_gsm c = Some gsm -> ch_static c <> None -> e_gsm E = Some f -> rf_dipole f = e_dipole E -> elems time <> [] ->
  (List.length gsm = N * (N + 2))%nat -> rot_file f k ki (N * (N + 2)) (N * (N + 2)) ->
  exists K, synth_coeffs_gsm E c time nmax (Some (src_name s)) = Ok K /\ csh K = sh time /\
    (cdim K = asked nmax N * (asked nmax N + 2))%nat /\
    forall i r, valid (sh time) i -> (r < cdim K)%nat ->
      cat K i r = Rsum (map (fun j => file_rotation f k ki s (at_ time i) r j * nth j gsm 0) (seq 0 (N * (N + 2)))).
Proof.
  intros Hg Hs He Hd Ht HL HF. unfold synth_coeffs_gsm. rewrite Hg.
  destruct (ch_static c) as [ms|]; [|congruence]. destruct (amin_ok _ Ht) as [v ->]. cbn [bind].
  rewrite He. cbn [load bind]. rewrite Hd, lists_equal_refl. cbn [negb].
  rewrite (sm_degree_exact _ _ HL), clip_min, HL. fold (asked nmax N).
  destruct (file_value f k ki _ _ s time HF) as (M & E1 & E2 & E3).
  destruct (matvec_value M (sh time) _ (N * (N + 2)) [] (fun _ j => nth j gsm 0) E2 (or_introl eq_refl)) as (K & K1 & K2 & K3 & K4).
  assert (Ha : (asked nmax N <= N)%nat) by (unfold asked; destruct nmax; lia).
  exists (take_coeffs (asked nmax N * (asked nmax N + 2)) K). split.
  - destruct s; cbn [src_name]; rewrite ?String.eqb_refl;
      change ("internal" =? "external")%string with false; cbv iota; rewrite E1; cbn [bind]; rewrite K1; reflexivity.
  - cbn [take_coeffs csh cdim cat]. split; [exact K2|]. rewrite K3.
    assert (Hm : (asked nmax N * (asked nmax N + 2) <= N * (N + 2))%nat) by nia.
    rewrite Nat.min_l by exact Hm. split; [reflexivity|]. intros i r Hi Hr. rewrite K4 by exact Hi.
    f_equal. apply map_ext_in. intros j Hj. apply in_seq in Hj. rewrite E3 by (assumption || lia). reflexivity.
Qed.

(** ** Baseline corrections *)
Lemma interval_used x K c t p : good_breaks x -> used_piece x p t -> interval (mkpp x K c true) t = Some p.
Proof.
  intros G [H|[[H ->]|[H ->]]].
  - apply interval_inside; assumption.
  - unfold interval. cbn [p_x p_ext]. unfold first_break in H. destruct (Rlt_dec t (nth 0 x 0)); [reflexivity|lra].
  - unfold interval. cbn [p_x p_ext]. unfold last_break in H. pose proof (good_mono x G 0 (List.length x - 1)) as M.
    destruct G as [L _]. specialize (M ltac:(lia)).
    destruct (Rlt_dec t (nth 0 x 0)); [lra|]. destruct (Rlt_dec (nth (List.length x - 1) x 0) t); [reflexivity|lra].
Qed.

Definition baseline (d : delta) (p : nat) (t : R) : R :=
  piece (d_breaks d) (d_order d) (fun r i _ => d_coeffs d r i) p 0 t.

Lemma delta_value d t p : good_breaks (d_breaks d) -> used_piece (d_breaks d) p t -> delta_at d t = baseline d p t.
Proof.
  intros G H. unfold delta_at, pp_eval. rewrite (interval_used _ _ _ _ _ G H). cbn [p_k p_c p_x].
  unfold baseline. rewrite piece_poly. reflexivity.
Qed.

Lemma used_piece_ex x t : good_breaks x -> exists p, used_piece x p t.
Proof.
  intros G. destruct (Rlt_dec t (first_break x)); [exists 0%nat; right; left; auto|].
  destruct (Rlt_dec (last_break x) t); [exists (List.length x - 2)%nat; right; right; auto|].
  destruct (in_interval_ex x t G) as [p Hp]; [lra|]. exists p. left. exact Hp.
Qed.

(** ** Assignment *)
Lemma drop_ones_0 s : drop_ones 0 s = s. Proof. destruct s; reflexivity. Qed.
Lemma shape_eqb_refl s : shape_eqb s s = true.
Proof. unfold shape_eqb. destruct (list_eq_dec _ s s); congruence. Qed.
Lemma shape_eqb_eq s t : shape_eqb s t = true -> s = t.
Proof. unfold shape_eqb. destruct (list_eq_dec _ s t); congruence. Qed.

Lemma bc_rev_length a : forall b c, bc_rev a b = Some c -> (List.length a <= List.length c)%nat.
Proof.
  induction a as [|x a IH]; intros [|y b] c H; cbn in *; try (injection H as <-; cbn; lia).
  destruct (bc_rev a b) as [r|] eqn:E; [|discriminate]. apply IH in E.
  destruct (x =? y)%nat; [injection H as <-; cbn; lia|]. destruct (x =? 1)%nat; [injection H as <-; cbn; lia|].
  destruct (y =? 1)%nat; [injection H as <-; cbn; lia|discriminate].
Qed.
Lemma bfits_length s t : bfits s t -> (List.length s <= List.length t)%nat.
Proof. unfold bfits. intros H. apply bc_rev_length in H. rewrite !rev_length in H. exact H. Qed.

Lemma assign_ok s t : bfits s t -> assign t s = Ok tt.
Proof.
  intros H. unfold assign, assignable. pose proof (bfits_length _ _ H).
  replace (List.length s - List.length t)%nat with 0%nat by lia. rewrite drop_ones_0, (bshape_fit _ _ H), shape_eqb_refl. reflexivity.
Qed.

Lemma broadcast_fit2 s t : bfits s t -> broadcast [s; t] = Ok t.
Proof.
  intros H. destruct (broadcast_lub [s; t] t) as (d & E & D).
  { apply Forall_cons; [exact H|]. apply Forall_cons; [apply bfits_refl|apply Forall_nil]. }
  rewrite E. f_equal. apply bfits_antisym; [exact D|]. pose proof (broadcast_bfits _ _ E) as F.
  inversion F as [|? ? _ F']. inversion F'. assumption.
Qed.

(** ** SM *)

(** The coefficients in the SM frame at time [t] with index value [rc]. *)
Definition sm_frame (sm : list R) (ds : delta * delta * delta) (rc t : R) (j : nat) : R :=
  if (j <? 3)%nat then rc * nth j sm 0 + delta_at (nth_delta ds j) t else nth j sm 0.

Definition delta_nonempty (ds : delta * delta * delta) : Prop :=
  forall j, (j < 3)%nat -> d_breaks (nth_delta ds j) <> [].

Lemma delta_nonempty_test ds : delta_nonempty ds ->
  existsb (fun j => (List.length (d_breaks (nth_delta ds j)) =? 0)%nat) [0; 1; 2]%nat = false.
Proof.
  intros H. cbn [existsb].
  assert (A : forall j, (j < 3)%nat -> (List.length (d_breaks (nth_delta ds j)) =? 0)%nat = false).
  { intros j Hj. specialize (H j Hj). destruct (d_breaks _); [congruence|reflexivity]. }
  rewrite !A by lia. reflexivity.
Qed.

Lemma sm_vector_ext sm f g j : ((j < 3)%nat -> f j = g j) -> sm_vector sm f j = sm_vector sm g j.
Proof. unfold sm_vector. destruct (Nat.ltb_spec j 3); auto. Qed.

Lemma asked_le nmax N : (asked nmax N <= N)%nat.
Proof. unfold asked. destruct nmax; lia. Qed.

Lemma sm_external E c f sm ds k ki N time nmax rc :
  ch_sm c = Some sm -> ch_delta c = Some ds -> delta_nonempty ds -> e_sm E = Some f -> rf_dipole f = e_dipole E -> elems time <> [] ->
  (1 <= N)%nat -> (List.length sm = N * (N + 2))%nat -> rot_file f k ki (N * (N + 2)) (N * (N + 2)) -> bfits (sh rc) (sh time) ->
  exists K, synth_coeffs_sm E c time nmax (Some "external"%string) (Some rc) = Ok K /\ csh K = sh time /\
    (cdim K = asked nmax N * (asked nmax N + 2))%nat /\
    forall i r, valid (sh time) i -> (r < cdim K)%nat ->
      cat K i r = Rsum (map (fun j => file_rotation f k ki External (at_ time i) r j * sm_frame sm ds (bread rc i) (at_ time i) j)
                            (seq 0 (N * (N + 2)))).
Proof.
  intros Hs Hds Hn He Hd Ht HN HL HF Hrc. unfold synth_coeffs_sm. rewrite Hs, Hds, (delta_nonempty_test _ Hn).
  destruct (amin_ok _ Ht) as [v ->]. cbn [bind].
  rewrite He. cbn [load bind]. rewrite Hd, lists_equal_refl. cbn [negb].
  destruct (file_value f k ki _ _ External time HF) as (M & E1 & E2 & E3). rewrite E1. cbn [bind].
  unfold sm_coeffs. rewrite (sm_degree_exact _ _ HL), clip_min, HL. fold (asked nmax N). change ("external" =? "external")%string with true. cbv iota.
  destruct (Nat.ltb_spec (N * (N + 2)) 3) as [L|_]; [nia|]. rewrite (broadcast_fit2 _ _ Hrc). cbn [bind].
  rewrite (assign_ok _ _ (bfits_refl (sh time))). cbn [bind]. rewrite Nat.eqb_refl. cbn [orb negb].
  match goal with |- context [matvec M (sh time) _ ?v] => destruct (matvec_value M (sh time) _ (N * (N + 2)) (sh time) v E2 (or_intror eq_refl)) as (K & K1 & K2 & K3 & K4) end.
  rewrite K1. cbn [bind]. eexists. split; [reflexivity|]. cbn [take_coeffs csh cdim cat]. split; [exact K2|]. rewrite K3.
  pose proof (asked_le nmax N).
  rewrite Nat.min_l by nia. split; [reflexivity|]. intros i r Hi Hr. rewrite K4 by exact Hi. f_equal. apply map_ext_in. intros j Hj. apply in_seq in Hj.
  rewrite E3 by (assumption || nia). rewrite (bidx_same _ _ Hi). reflexivity.
Qed.

Lemma sm_internal E c f sm ds k ki N time nmax rc :
  ch_sm c = Some sm -> ch_delta c = Some ds -> delta_nonempty ds -> e_sm E = Some f -> rf_dipole f = e_dipole E -> elems time <> [] ->
  (1 <= N)%nat -> (List.length sm = N * (N + 2))%nat -> rot_file f k ki (N * (N + 2)) (N * (N + 2)) -> bfits (sh rc) (sh time) ->
  exists K, synth_coeffs_sm E c time nmax (Some "internal"%string) (Some rc) = Ok K /\ csh K = sh time /\
    (cdim K = asked nmax N * (asked nmax N + 2))%nat /\
    forall i r, valid (sh time) i -> (r < cdim K)%nat ->
      cat K i r = Rsum (map (fun j => file_rotation f k ki Internal (at_ time i) r j * sm_frame sm ds 0 (at_ time i) j)
                            (seq 0 (N * (N + 2)))) +
                  (if (r <? 3)%nat then Rsum (map (fun j => file_rotation f k ki External (at_ time i) r j * (bread rc i * nth j sm 0)) (seq 0 3)) else 0).
Proof.
  intros Hs Hds Hn He Hd Ht HN HL HF Hrc. unfold synth_coeffs_sm. rewrite Hs, Hds, (delta_nonempty_test _ Hn).
  destruct (amin_ok _ Ht) as [v ->]. cbn [bind].
  rewrite He. cbn [load bind]. rewrite Hd, lists_equal_refl. cbn [negb].
  destruct (file_value f k ki _ _ External time HF) as (M & E1 & E2 & E3). rewrite E1. cbn [bind].
  unfold sm_coeffs. rewrite (sm_degree_exact _ _ HL), clip_min, HL. fold (asked nmax N).
  change ("internal" =? "external")%string with false. change ("internal" =? "internal")%string with true. cbv iota.
  destruct (file_value f k ki _ _ Internal time HF) as (Mi & I1 & I2 & I3). rewrite I1. cbn [bind].
  destruct (Nat.ltb_spec (N * (N + 2)) 3) as [L|_]; [nia|].
  rewrite (assign_ok _ _ Hrc). cbn [bind]. rewrite Nat.eqb_refl. cbn [orb negb].
  match goal with |- context [matvec Mi (sh time) _ ?v] => destruct (matvec_value Mi (sh time) _ (N * (N + 2)) (sh time) v I2 (or_intror eq_refl)) as (K & K1 & K2 & K3 & K4) end.
  rewrite K1. cbn [bind].
  pose proof (corner_shape M (sh time) _ _ E2) as EC. rewrite !(Nat.min_l 3) in EC by nia.
  match goal with |- context [matvec (corner M) (sh time) _ ?v] => destruct (matvec_value (corner M) (sh time) 3 3 (sh time) v EC (or_intror eq_refl)) as (Q & Q1 & Q2 & Q3 & Q4) end.
  rewrite Q1. cbn [bind]. rewrite K2, Q2, (bshape_fit _ _ (bfits_refl _)), shape_eqb_refl. cbn [bind].
  rewrite Q3, K3, Nat.min_l, Nat.eqb_refl by nia. cbn [bind]. eexists. split; [reflexivity|]. cbn [take_coeffs csh cdim cat]. split; [reflexivity|].
  pose proof (asked_le nmax N).
  rewrite Nat.min_l by nia. split; [reflexivity|]. intros i r Hi Hr.
  assert (A : cat K i r = Rsum (map (fun j => file_rotation f k ki Internal (at_ time i) r j * sm_frame sm ds 0 (at_ time i) j) (seq 0 (N * (N + 2))))).
  { rewrite K4 by exact Hi. f_equal. apply map_ext_in. intros j Hj. apply in_seq in Hj.
    rewrite I3 by (assumption || nia). rewrite (bidx_same _ _ Hi). f_equal. unfold sm_vector, sm_frame. destruct (_ <? _)%nat; [ring|reflexivity]. }
  destruct (Nat.ltb_spec r 3) as [L|L]; [|rewrite A; ring].
  rewrite A. f_equal. rewrite (bidx_same _ _ Hi), Q4 by exact Hi. f_equal. apply map_ext_in. intros j Hj. apply in_seq in Hj.
  change (at_ (corner M)) with (at_ M). rewrite E3 by (assumption || nia). rewrite (bidx_same _ _ Hi). reflexivity.
Qed.
