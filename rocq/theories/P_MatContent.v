(** Proofs about the contents of saved MAT-files. *)
From Coq Require Import Reals List Arith ZArith String Bool Lia Lra.
From Verif Require Import M_Prelude M_ND Spec_Field Spec_PP M_SynthArr M_PP M_Spectrum M_Model M_Chaos M_Matfile Spec_Matfile Spec_MatContent P_ND P_SHC2 P_PP P_PP2 P_Chaos P_Chaos4 P_Matfile P_Matfile2 P_Matfile3 P_Matfile4 P_Matfile5 P_Matfile6 P_Matfile7.
Import ListNotations.
Open Scope R_scope.

Lemma row_matrix x : matrix (row x) 1 (List.length x) (fun _ j => nth j x 0).
Proof. split; [reflexivity|]. split; [cbn [row a_v]; lia|]. intros i j Hi Hj. replace i with 0%nat by lia. reflexivity. Qed.

Lemma column_matrix x : matrix (column x) (List.length x) 1 (fun i _ => nth i x 0).
Proof. split; [reflexivity|]. split; [cbn [column a_v]; lia|]. intros i j Hi Hj. replace (i * 1 + j)%nat with i by lia. reflexivity. Qed.

Lemma column_map n (f : nat -> R) : matrix (column (map f (seq 0 n))) n 1 (fun i _ => f i).
Proof.
  split; [cbn [column a_sh]; rewrite map_length, seq_length; reflexivity|]. split; [cbn [column a_v]; rewrite map_length, seq_length; lia|].
  intros i j Hi Hj. replace (i * 1 + j)%nat with i by lia. cbn [column a_v]. apply nth_map_seq. exact Hi.
Qed.

Lemma transpose_matrix k n v : List.length v = (k * n)%nat ->
  matrix (M_Matfile.transpose (mkarr [k; n] v)) n k (fun p r => nth (r * n + p) v 0).
Proof.
  intros HL. unfold M_Matfile.transpose. cbn [a_sh a_v]. split; [reflexivity|]. split; [cbn [a_v]; rewrite map_length, seq_length; lia|].
  intros p r Hp Hr. cbn [a_v]. assert (p * k + r < k * n)%nat by nia. rewrite nth_map_seq by assumption.
  replace ((p * k + r) mod k) with r by (rewrite Nat.add_comm, Nat.mod_add by lia; symmetry; apply Nat.mod_small, Hr).
  rewrite Nat.div_add_l by lia. rewrite (Nat.div_small r k Hr), Nat.add_0_r. reflexivity.
Qed.

(** values of the three-dimensional array in C order *)
Lemma flat3_nth c r i d : (r < c_k c)%nat -> (i < c_m c)%nat -> (d < c_d c)%nat ->
  nth ((r * c_m c + i) * c_d c + d) (a_v (flat3 c)) 0 = c_v c r i d.
Proof. intros Hr Hi Hd. destruct (cube_flat c) as (_ & _ & _ & H). symmetry. apply (H r i d Hr Hi Hd). Qed.

Lemma ppdict_content b x k : full_base b x k ->
  exists pp, to_ppdict b = Ok pp /\ pp_order pp = c_k k /\ pp_pieces pp = (List.length x - 1)%nat /\ pp_dim pp = c_d k /\
    matrix (pp_breaks pp) 1 (List.length x) (fun _ j => nth j x 0) /\
    matrix (pp_coefs pp) ((List.length x - 1) * c_d k) (c_k k) (fun p r => c_v k r (p / c_d k) (p mod c_d k))%nat.
Proof.
  intros [H1 H2 H3 H4 H5 H6 H7 H8]. unfold to_ppdict. rewrite H1, H3, H4, H6, H8, Nat2Z.id.
  assert (HR : reshape_rows (c_k k) (flat3 k) = Ok (mkarr [c_k k; c_m k * c_d k]%nat (a_v (flat3 k)))).
  { unfold reshape_rows. destruct (Nat.eqb_spec (c_k k) 0); [lia|]. rewrite flat3_length, (Nat.mul_comm (c_k k)), Nat.mod_mul by lia.
    rewrite Nat.eqb_refl, Nat.div_mul by lia. reflexivity. }
  rewrite HR. cbn [bind]. eexists. split; [reflexivity|]. cbn [pp_order pp_pieces pp_dim pp_breaks pp_coefs].
  split; [reflexivity|]. split; [lia|]. split; [reflexivity|]. split; [apply row_matrix|].
  destruct (transpose_matrix (c_k k) (c_m k * c_d k) (a_v (flat3 k)) (flat3_length k)) as (T1 & T2 & T3). rewrite H7 in *.
  split; [exact T1|]. split; [exact T2|].
  intros p r Hp Hr. rewrite T3 by assumption.
  assert (D0 : c_d k <> 0%nat) by nia.
  rewrite <- (flat3_nth k r (p / c_d k) (p mod c_d k)); [|exact Hr| |apply Nat.mod_upper_bound, D0].
  - f_equal. rewrite (Nat.div_mod p (c_d k) D0) at 1. rewrite H7. nia.
  - rewrite H7. apply Nat.div_lt_upper_bound; [exact D0|]. rewrite Nat.mul_comm. exact Hp.
Qed.

Lemma sum_map_rev (f : nat -> R) n : fold_right Rplus 0 (map (fun r => f (n - 1 - r)%nat) (seq 0 n)) = fold_right Rplus 0 (map f (seq 0 n)).
Proof.
  assert (FA : forall (l l' : list R), fold_right Rplus 0 (l ++ l') = fold_right Rplus 0 l + fold_right Rplus 0 l').
  { intros l l'. induction l as [|a l IH]; cbn [app fold_right]; [ring|]. rewrite IH. ring. }
  induction n as [|n IH]; [reflexivity|].
  transitivity (f n + fold_right Rplus 0 (map (fun r => f (n - 1 - r)%nat) (seq 0 n))).
  - change (seq 0 (S n)) with (0%nat :: seq 1 n). cbn [map fold_right]. replace (S n - 1 - 0)%nat with n by lia. f_equal.
    rewrite <- (seq_shift n 0), map_map. f_equal. apply map_ext. intros r. f_equal. lia.
  - rewrite IH, (seq_S n 0), map_app, FA. cbn [map fold_right Nat.add]. ring.
Qed.

Lemma ppval_piece pp K n D x v i d t : pp_order pp = K -> pp_pieces pp = n -> pp_dim pp = D -> (n + 1 = List.length x)%nat ->
  matrix (pp_breaks pp) 1 (List.length x) (fun _ j => nth j x 0) ->
  matrix (pp_coefs pp) (n * D) K (fun p r => v r (p / D) (p mod D))%nat -> (i < n)%nat -> (d < D)%nat ->
  ppval pp i d t = piece x K v i d t.
Proof.
  intros E1 E2 E3 E4 (B1 & B2 & B3) (C1 & C2 & C3) Hi Hd. unfold ppval, piece. rewrite E1, E2, E3.
  rewrite <- (sum_map_rev (fun k => v (K - 1 - k)%nat i d * (t - nth i x 0) ^ k) K). f_equal. apply map_ext_in. intros r Hr. apply in_seq in Hr.
  assert (EB : entry (n + 1) (pp_breaks pp) 0 i = nth i x 0) by (unfold entry; rewrite E4; apply (B3 0%nat i); lia).
  assert (EC : entry K (pp_coefs pp) (i * D + d) r = v r i d).
  { unfold entry. rewrite C3; [|nia|lia]. rewrite Nat.div_add_l by lia. rewrite (Nat.div_small d D Hd), Nat.add_0_r.
    replace ((i * D + d) mod D) with d by (rewrite Nat.add_comm, Nat.mod_add by lia; symmetry; apply Nat.mod_small, Hd). reflexivity. }
  rewrite EB, EC. f_equal. f_equal. lia.
Qed.

(** ** Time-dependent part *)
Lemma saved_pp c meta f0 f x K D v m : save_matfile c meta f0 = (f, Ok tt) -> ch_tdep c = Some m ->
  m_base m = base_init (Some x) None (Some (mkc3 K (List.length x - 1) D v)) -> (2 <= List.length x)%nat -> (1 <= K)%nat ->
  exists pp, mf_pp f = Some pp /\ pp_order pp = K /\ pp_pieces pp = (List.length x - 1)%nat /\ pp_dim pp = D /\
    matrix (pp_breaks pp) 1 (List.length x) (fun _ j => nth j x 0) /\
    matrix (pp_coefs pp) ((List.length x - 1) * D) K (fun p r => v r (p / D) (p mod D))%nat.
Proof.
  intros HS HT HB HX HK. apply save_inv in HS as (A & _). rewrite HT in A. destruct A as (pp & A1 & A2).
  destruct (init_full x None (mkc3 K (List.length x - 1) D v) HX HK eq_refl ltac:(discriminate)) as (k & F & FD).
  assert (SK : same_coeffs k (mkc3 K (List.length x - 1) D v)).
  { pose proof (fb_coeffs _ _ _ F) as EK. unfold base_init in EK. cbn [b_coeffs] in EK. injection EK as EK. rewrite <- EK.
    pose proof (take_last_all (mkc3 K (List.length x - 1) D v)) as (S1 & S2 & S3 & S4). cbn [c_k c_m c_d c_v] in *.
    split; [symmetry; exact S1|]. split; [reflexivity|]. split; [reflexivity|]. intros r i d Hr Hi Hd. symmetry. apply S4; [rewrite S1; exact Hr|exact Hi|exact Hd]. }
  destruct (ppdict_content _ _ _ F) as (pp' & P1 & P2 & P3 & P4 & P5 & P6). rewrite HB in A1. rewrite A1 in P1. injection P1 as <-.
  destruct SK as (S1 & S2 & S3 & S4). cbn [c_k c_m c_d c_v] in *. rewrite S1, S3 in *.
  exists pp. split; [exact A2|]. split; [exact P2|]. split; [exact P3|]. split; [exact P4|]. split; [exact P5|].
  destruct P6 as (Q1 & Q2 & Q3). split; [exact Q1|]. split; [exact Q2|]. intros p r Hp Hr. rewrite Q3 by assumption.
  assert (D0 : D <> 0%nat) by nia. apply S4; [exact Hr| |apply Nat.mod_upper_bound, D0].
  rewrite S2. apply Nat.div_lt_upper_bound; [exact D0|]. rewrite Nat.mul_comm. exact Hp.
Qed.

(** MATLAB's value is the value of the model. *)
Lemma saved_ppval c meta f0 f x K D v m : save_matfile c meta f0 = (f, Ok tt) -> ch_tdep c = Some m ->
  m_base m = base_init (Some x) None (Some (mkc3 K (List.length x - 1) D v)) -> good_breaks x -> (1 <= K)%nat ->
  exists pp, mf_pp f = Some pp /\
    forall time e r idx i d, valid (sh time) idx -> (d < D)%nat -> synth_coeffs (m_base m) time None None e = Ok r ->
      in_interval x i (at_ time idx) -> s_at r idx d = Some (ppval pp i d (at_ time idx)).
Proof.
  intros HS HT HB GX HK. destruct (saved_pp _ _ _ _ _ _ _ _ _ HS HT HB (proj1 GX) HK) as (pp & P1 & P2 & P3 & P4 & P5 & P6).
  exists pp. split; [exact P1|]. intros time e r idx i d HV Hd HE HI. rewrite HB in HE.
  rewrite (C39 x K D v time None e r idx i d GX HK Hd HV HE HI). f_equal. symmetry.
  destruct GX as [G1 _]. destruct HI as [I1 _]. apply (ppval_piece pp K (List.length x - 1) D); try assumption; lia.
Qed.

(** ** Static part, parameters, calibration *)
Lemma saved_static c meta f0 f D v m : save_matfile c meta f0 = (f, Ok tt) -> ch_static c = Some m -> b_coeffs (m_base m) = Some (mkc3 1 1 D v) ->
  exists g, mf_g f = Some g /\ matrix g D 1 (fun d _ => v 0%nat 0%nat d).
Proof.
  intros HS HT HB. apply save_inv in HS as (_ & _ & _ & _ & A & _). rewrite HT in A. destruct A as (k & A1 & A2). rewrite HB in A1. injection A1 as <-.
  eexists. split; [exact A2|]. unfold flat3. cbn [a_v c_k c_m c_d c_v]. replace (1 * (1 * D))%nat with D by lia.
  destruct (column_map D (fun p => v (p / (1 * D)) (p / D mod 1) (p mod D))%nat) as (C1 & C2 & C3). split; [exact C1|]. split; [exact C2|].
  intros i j Hi Hj. rewrite C3 by assumption. rewrite Nat.div_small by lia. rewrite Nat.mod_1_r, Nat.mod_small by exact Hi. reflexivity.
Qed.

Lemma saved_params c meta f0 f : save_matfile c meta f0 = (f, Ok tt) ->
  mf_params f = match meta with SNone => mf_params f0 | SMeta pre _ => Some pre end.
Proof. intros HS. apply save_inv in HS as (_ & _ & _ & _ & _ & A). destruct meta; exact A. Qed.

(** ** External part *)
Lemma sum_blocks (g : nat -> nat -> R) n k : (n <> 0)%nat ->
  fold_right Rplus 0 (map (fun p => g (p / n) (p mod n))%nat (seq 0 (k * n))) =
  fold_right Rplus 0 (map (fun r => fold_right Rplus 0 (map (fun i => g r i) (seq 0 n))) (seq 0 k)).
Proof.
  intros Hn. assert (FA : forall (l l' : list R), fold_right Rplus 0 (l ++ l') = fold_right Rplus 0 l + fold_right Rplus 0 l').
  { intros l l'. induction l as [|a l IH]; cbn [app fold_right]; [ring|]. rewrite IH. ring. }
  induction k as [|k IH]; [reflexivity|].
  rewrite (seq_S k 0), map_app, FA, <- IH. cbn [Nat.add map fold_right]. rewrite Rplus_0_r.
  replace (S k * n)%nat with (k * n + n)%nat by lia. rewrite seq_app, map_app, FA. f_equal. cbn [Nat.add].
  replace (seq (k * n) n) with (map (fun i => (k * n + i)%nat) (seq 0 n)).
  - rewrite map_map. f_equal. apply map_ext_in. intros i Hi. apply in_seq in Hi.
    rewrite Nat.div_add_l by exact Hn. rewrite (Nat.div_small i n), Nat.add_0_r by lia.
    replace ((k * n + i) mod n) with i by (rewrite Nat.add_comm, Nat.mod_add by exact Hn; symmetry; apply Nat.mod_small; lia). reflexivity.
  - clear. generalize (k * n)%nat. intros s. induction n as [|n IH]; [reflexivity|]. rewrite !seq_S, map_app, IH. cbn. reflexivity.
Qed.

Lemma Rsum_fold l : Rsum l = fold_right Rplus 0 l.
Proof. reflexivity. Qed.

Lemma mean_average d : mean (delta_flat d) = average d.
Proof.
  unfold mean, average, delta_flat. fold (intervals d). rewrite map_length, seq_length. f_equal. rewrite Rsum_fold.
  destruct (Nat.eq_dec (intervals d) 0) as [E|N]; [|apply sum_blocks, N].
  rewrite E, Nat.mul_0_r. cbn [seq map fold_right]. symmetry. induction (seq 0 (d_order d)) as [|a l IH]; cbn [map fold_right]; [reflexivity|]. rewrite IH. ring.
Qed.

Lemma delta_column d : matrix (column (delta_flat d)) (d_order d * intervals d) 1 (fun p _ => d_coeffs d (p / intervals d) (p mod intervals d))%nat.
Proof. unfold delta_flat. fold (intervals d). apply column_map. Qed.

Lemma stack_matrix a b x : stack2 a b = Ok x -> matrix x (List.length a) 2 (fun i j => nth i (match j with 0%nat => a | _ => b end) 0).
Proof.
  unfold stack2. destruct (Nat.eqb_spec (List.length a) (List.length b)) as [E|]; [|discriminate]. intros H. injection H as <-.
  split; [reflexivity|]. cbn [a_v]. split.
  - clear -E. revert b E. induction a as [|u a IH]; intros [|w b] E; cbn in *; try lia. rewrite IH by lia. lia.
  - revert b E. induction a as [|u a IH]; intros [|w b] E i j Hi Hj; cbn in E, Hi; try lia.
    destruct i as [|i]; [destruct j as [|[|]]; [reflexivity|reflexivity|lia]|].
    cbn [combine flat_map fst snd app]. replace (S i * 2 + j)%nat with (S (S (i * 2 + j))) by lia. cbn [nth]. rewrite IH by lia.
    destruct j; reflexivity.
Qed.

Lemma saved_ext c meta f0 f sm gsm q10 q11 s11 : save_matfile c meta f0 = (f, Ok tt) ->
  ch_delta c = Some (q10, q11, s11) -> ch_sm c = Some sm -> ch_gsm c = Some gsm ->
  exists x, mf_ext f = Some x /\ (3 <= List.length sm)%nat /\ (4 <= List.length gsm)%nat /\
    (d_order q11 * intervals q11 = d_order s11 * intervals s11)%nat /\
    matrix (x_tq10 x) (List.length (d_breaks q10)) 1 (fun i _ => nth i (d_breaks q10) 0) /\
    matrix (x_q10 x) (d_order q10 * intervals q10) 1 (fun p _ => d_coeffs q10 (p / intervals q10) (p mod intervals q10))%nat /\
    matrix (x_tqs11 x) (List.length (d_breaks q11)) 1 (fun i _ => nth i (d_breaks q11) 0) /\
    matrix (x_qs11 x) (d_order q11 * intervals q11) 2
      (fun p j => if (j =? 0)%nat then d_coeffs q11 (p / intervals q11)%nat (p mod intervals q11)%nat
                                  else d_coeffs s11 (p / intervals s11)%nat (p mod intervals s11)%nat) /\
    matrix (x_sm x) (List.length sm) 1
      (fun i _ => match i with 0%nat => average q10 | 1%nat => average q11 | 2%nat => average s11 | _ => nth i sm 0 end) /\
    matrix (x_dst x) 3 1 (fun i _ => nth i sm 0) /\
    matrix (x_gsm x) 2 1 (fun i _ => nth (3 * i) gsm 0).
Proof.
  intros HS HD HM HG. apply save_inv in HS as (_ & A & _). rewrite HD, HM, HG in A. destruct A as (x & A1 & A2). exists x. split; [exact A2|].
  unfold save_ext in A1. apply bind_inv in A1 as (qs & B1 & A1).
  destruct (Nat.ltb_spec (List.length sm) 3) as [|L3]; [discriminate|]. split; [exact L3|].
  apply bind_inv in A1 as (g2 & B2 & A1). injection A1 as <-. cbn [x_tq10 x_q10 x_tqs11 x_qs11 x_sm x_gsm x_dst].
  destruct gsm as [|g0 [|g1 [|g2' [|g3 gsm]]]]; try discriminate. injection B2 as <-. split; [cbn; lia|].
  assert (EL : (d_order q11 * intervals q11 = d_order s11 * intervals s11)%nat).
  { unfold stack2 in B1. destruct (Nat.eqb_spec (List.length (delta_flat q11)) (List.length (delta_flat s11))) as [E|]; [|discriminate].
    unfold delta_flat in E. rewrite !map_length, !seq_length in E. exact E. }
  split; [exact EL|]. split; [apply column_matrix|]. split; [apply delta_column|]. split; [apply column_matrix|].
  split.
  { destruct (stack_matrix _ _ _ B1) as (C1 & C2 & C3). assert (EQ : List.length (delta_flat q11) = (d_order q11 * intervals q11)%nat) by (unfold delta_flat; rewrite map_length, seq_length; reflexivity).
    rewrite EQ in C1, C2, C3. split; [exact C1|]. split; [exact C2|]. intros i j Hi Hj. rewrite C3 by assumption.
    destruct j as [|j]; cbn [Nat.eqb]; unfold delta_flat; fold (intervals q11) (intervals s11); rewrite nth_map_seq by lia; reflexivity. }
  split.
  { rewrite !mean_average. destruct sm as [|s0 [|s1 [|s2 sm]]]; cbn in L3; try lia. cbn [skipn app].
    destruct (column_matrix (average q10 :: average q11 :: average s11 :: sm)) as (C1 & C2 & C3). split; [exact C1|]. split; [exact C2|].
    intros i j Hi Hj. rewrite C3 by assumption. destruct i as [|[|[|i]]]; reflexivity. }
  split.
  { destruct sm as [|s0 [|s1 [|s2 sm]]]; cbn in L3; try lia. cbn [firstn]. destruct (column_matrix [s0; s1; s2]) as (C1 & C2 & C3). split; [exact C1|]. split; [exact C2|].
    intros i j Hi Hj. rewrite C3 by assumption. destruct i as [|[|[|i]]]; [reflexivity|reflexivity|reflexivity|cbn in Hi; lia]. }
  destruct (column_matrix [g0; g3]) as (C1 & C2 & C3). split; [exact C1|]. split; [exact C2|].
  intros i j Hi Hj. rewrite C3 by assumption. destruct i as [|[|i]]; [reflexivity|reflexivity|cbn in Hi; lia].
Qed.
