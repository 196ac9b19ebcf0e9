(** Lemmas about MAT-files. *)
From Coq Require Import Reals List Arith ZArith String Bool Lia Lra.
From Verif Require Import M_Prelude M_ND Spec_Field Spec_PP M_PP M_Spectrum M_Model M_Chaos M_Matfile Spec_Matfile P_ND P_Chaos P_Chaos4.
Import ListNotations.
Open Scope R_scope.

Lemma flat3_length c : List.length (a_v (flat3 c)) = (c_k c * (c_m c * c_d c))%nat.
Proof. unfold flat3. cbn [a_v]. rewrite map_length, seq_length. reflexivity. Qed.

Lemma nth_map_seq {A} (f : nat -> A) n p d : (p < n)%nat -> nth p (map f (seq 0 n)) d = f p.
Proof.
  intros H. rewrite (nth_indep _ d (f 0%nat)) by (rewrite map_length, seq_length; exact H).
  rewrite map_nth, seq_nth by exact H. reflexivity.
Qed.

Lemma cube_flat c : same_coeffs c (cube (c_k c) (c_m c) (c_d c) (a_v (flat3 c))).
Proof.
  split; [reflexivity|]. split; [reflexivity|]. split; [reflexivity|]. intros r i d Hr Hi Hd. unfold cube, flat3. cbn [c_v a_v].
  set (K := c_k c) in *. set (m := c_m c) in *. set (D := c_d c) in *.
  assert (Hb : ((r * m + i) * D + d < K * (m * D))%nat).
  { assert (Y1 : (r * m + i + 1 <= K * m)%nat) by nia. assert (Y2 : ((r * m + i + 1) * D <= K * m * D)%nat) by (apply Nat.mul_le_mono_r; exact Y1). lia. }
  rewrite nth_map_seq by exact Hb.
  assert (E1 : ((r * m + i) * D + d) mod D = d) by (rewrite Nat.add_comm, Nat.mod_add by lia; apply Nat.mod_small, Hd).
  assert (E2 : (((r * m + i) * D + d) / D = r * m + i)%nat) by (rewrite Nat.div_add_l by lia; rewrite (Nat.div_small d D Hd); lia).
  rewrite E1, E2, (Nat.mul_comm m D), <- Nat.div_div, E2 by lia.
  replace ((r * m + i) mod m) with i by (rewrite Nat.add_comm, Nat.mod_add by lia; symmetry; apply Nat.mod_small, Hi).
  rewrite Nat.div_add_l by lia. rewrite (Nat.div_small i m Hi), Nat.add_0_r. reflexivity.
Qed.

Lemma list_ext (l l' : list R) : List.length l = List.length l' -> (forall p, (p < List.length l)%nat -> nth p l 0 = nth p l' 0) -> l = l'.
Proof. intros H1 H2. apply (nth_ext l l' 0 0 H1). exact H2. Qed.

(** writing the transpose, squeezing and transposing back gives the values in
    the original order *)
Lemma transpose_squeeze k n v : List.length v = (k * n)%nat -> (1 <= k)%nat ->
  a_v (M_Matfile.transpose (squeeze (M_Matfile.transpose (mkarr [k; n] v)))) = v.
Proof.
  intros HL HK. unfold M_Matfile.transpose at 2. cbn [a_sh a_v]. unfold squeeze. cbn [a_sh a_v filter].
  destruct (Nat.eqb_spec n 1) as [En|En]; destruct (Nat.eqb_spec k 1) as [Ek|Ek]; cbn [negb].
  - subst. cbn in HL. unfold M_Matfile.transpose. cbn [a_sh a_v]. cbn.  destruct v as [|x [|]]; cbn in HL; try lia. reflexivity.
  - subst. unfold M_Matfile.transpose. cbn [a_sh a_v]. apply list_ext; [rewrite map_length, seq_length; lia|].
    intros p Hp. rewrite map_length, seq_length in Hp. rewrite nth_map_seq by exact Hp. rewrite Nat.mod_small, Nat.div_small by lia. f_equal. lia.
  - subst. unfold M_Matfile.transpose. cbn [a_sh a_v]. apply list_ext; [rewrite map_length, seq_length; lia|].
    intros p Hp. rewrite map_length, seq_length in Hp. rewrite nth_map_seq by exact Hp. rewrite Nat.mod_1_r, Nat.div_1_r. f_equal. 
  - unfold M_Matfile.transpose. cbn [a_sh a_v]. apply list_ext; [rewrite map_length, seq_length; lia|].
    intros p Hp. rewrite map_length, seq_length in Hp. rewrite nth_map_seq by exact Hp.
    assert (Hn : (n <> 0)%nat) by nia.
    assert (H1 : (p mod n < n)%nat) by (apply Nat.mod_upper_bound; exact Hn).
    assert (H2 : (p / n < k)%nat) by (apply Nat.div_lt_upper_bound; nia).
    rewrite nth_map_seq by nia.
    replace ((p mod n * k + p / n) mod k) with (p / n)%nat by (rewrite Nat.add_comm, Nat.mod_add by lia; symmetry; apply Nat.mod_small, H2).
    rewrite Nat.div_add_l by lia. rewrite (Nat.div_small (p / n) k H2), Nat.add_0_r.
    f_equal. rewrite (Nat.div_mod p n Hn) at 3. lia.
Qed.

(** ** The pp-form *)
Record full_base (b : base) (x : list R) (k : c3) : Prop := mkfull {
  fb_breaks : b_breaks b = Some x; fb_len : (2 <= List.length x)%nat; fb_coeffs : b_coeffs b = Some k;
  fb_order : b_order b = Some (Z.of_nat (c_k k)); fb_k : (1 <= c_k k)%nat;
  fb_pieces : b_pieces b = Some (Z.of_nat (List.length x) - 1)%Z; fb_m : c_m k = (List.length x - 1)%nat; fb_dim : b_dim b = Some (c_d k) }.

Lemma squeeze_row x : a_v (squeeze (row x)) = x. Proof. reflexivity. Qed.
Lemma squeeze_column x : a_v (squeeze (column x)) = x. Proof. reflexivity. Qed.

Lemma ppdict_round_trip b x k : full_base b x k ->
  exists pp, to_ppdict b = Ok pp /\ pp_order pp = c_k k /\ pp_pieces pp = c_m k /\ pp_dim pp = c_d k /\ a_v (squeeze (pp_breaks pp)) = x /\
    exists a, reshape [pp_order pp; pp_pieces pp; pp_dim pp] (M_Matfile.transpose (squeeze (pp_coefs pp))) = Ok a /\ a_v a = a_v (flat3 k).
Proof.
  intros [H1 H2 H3 H4 H5 H6 H7 H8]. unfold to_ppdict. rewrite H1, H3, H4, H6, H8. rewrite Nat2Z.id.
  assert (HR : reshape_rows (c_k k) (flat3 k) = Ok (mkarr [c_k k; c_m k * c_d k]%nat (a_v (flat3 k)))).
  { unfold reshape_rows. destruct (Nat.eqb_spec (c_k k) 0); [lia|]. rewrite flat3_length, (Nat.mul_comm (c_k k)), Nat.mod_mul by lia.
    rewrite Nat.eqb_refl, Nat.div_mul by lia. reflexivity. }
  rewrite HR. cbn [bind]. eexists. split; [reflexivity|]. cbn [pp_order pp_pieces pp_dim pp_breaks pp_coefs].
  split; [reflexivity|]. split; [lia|]. split; [reflexivity|]. split; [apply squeeze_row|].
  unfold reshape. rewrite transpose_squeeze by (try apply flat3_length; lia).
  rewrite flat3_length. cbn [fold_right]. replace (Z.to_nat (Z.of_nat (List.length x) - 1)) with (c_m k) by lia.
  rewrite Nat.mul_1_r, Nat.eqb_refl. eexists. split; reflexivity.
Qed.

Lemma same_coeffs_trans a b c : same_coeffs a b -> same_coeffs b c -> same_coeffs a c.
Proof.
  intros (A1 & A2 & A3 & A4) (B1 & B2 & B3 & B4). split; [congruence|]. split; [congruence|]. split; [congruence|].
  intros r i d Hr Hi Hd. rewrite A4 by assumption. apply B4; congruence.
Qed.

Lemma take_last_all k : same_coeffs k (take_last k (Z.of_nat (c_k k))).
Proof.
  unfold take_last. set (n := Z.to_nat _).
  assert (E : n = 0%nat).
  { unfold n. destruct (Z.eqb_spec (Z.of_nat (c_k k)) 0); [reflexivity|]. destruct (Z.ltb_spec 0 (Z.of_nat (c_k k))); lia. }
  rewrite E. split; cbn [c_k c_m c_d c_v]; [lia|]. split; [reflexivity|]. split; [reflexivity|]. intros. f_equal. lia.
Qed.

(** what the loader makes of it *)
Lemma reloaded_base x k s : (2 <= List.length x)%nat -> (1 <= c_k k)%nat -> c_m k = (List.length x - 1)%nat ->
  forall b, full_base b x k -> same_base b (base_init (Some x) (Some (Z.of_nat (c_k k))) (Some (cube (c_k k) (c_m k) (c_d k) (a_v (flat3 k))))) /\
  m_nmax (model_init (Some x) (Some (Z.of_nat (c_k k))) (Some (cube (c_k k) (c_m k) (c_d k) (a_v (flat3 k)))) s) = Some (degree_of_size (c_d k)).
Proof.
  intros HL HK HM b [H1 H2 H3 H4 H5 H6 H7 H8]. unfold model_init, base_init.
  assert (EB : match x with [b] => Some [b; b] | _ => Some x end = Some x) by (destruct x as [|? [|]]; cbn in HL; try lia; reflexivity).
  rewrite EB. cbn [m_nmax b_dim c_k c_m c_d cube option_map]. split; [|reflexivity].
  rewrite Z.min_id. unfold same_base. cbn [b_breaks b_pieces b_order b_dim b_coeffs]. rewrite H1, H3, H4, H6, H8.
  do 4 (split; [reflexivity|]). eapply same_coeffs_trans; [apply cube_flat|]. apply (take_last_all (cube (c_k k) (c_m k) (c_d k) (a_v (flat3 k)))).
Qed.
