From Coq Require Import List Arith ZArith QArith Qabs Qround Qpower Qfield Ascii String Bool Lia Lqa.
From Verif Require Import M_Prelude M_Text P_Text Spec_Text P_TextSpec M_Label Spec_Label.
Import ListNotations.
Open Scope Q_scope.

(** ** Colours *)
Definition table : list (Q * Q * Q) :=
  map (fun i => let i := Z.of_nat i in (Qred (lut_entry nio_red i), Qred (lut_entry nio_green i), Qred (lut_entry nio_blue i))) (seq 0 256).
Definition entry (i : Z) : colour := (lut_entry nio_red i, lut_entry nio_green i, lut_entry nio_blue i).

Definition zall (P : Z -> bool) : bool := forallb (fun n => P (Z.of_nat n)) (seq 0 256).
Lemma zall_spec P : zall P = true -> forall i, (0 <= i < 256)%Z -> P i = true.
Proof.
  intros H i Hi. unfold zall in H. rewrite forallb_forall in H. specialize (H (Z.to_nat i)).
  rewrite Z2Nat.id in H by lia. apply H. apply in_seq. lia.
Qed.
Definition in01 (q : Q) : bool := Qle_bool 0 q && Qle_bool q 1.
Lemma entry_proper_b : zall (fun i => let '(r, g, b) := entry i in in01 r && in01 g && in01 b) = true.
Proof. vm_compute. reflexivity. Qed.
Lemma in01_spec q : in01 q = true -> 0 <= q <= 1.
Proof. unfold in01. rewrite andb_true_iff, !Qle_bool_iff. tauto. Qed.
Lemma entry_proper i : (0 <= i < 256)%Z -> proper (entry i).
Proof.
  intros H. pose proof (zall_spec _ entry_proper_b i H) as X. cbv beta in X. unfold entry in X. rewrite !andb_true_iff in X.
  destruct X as ((A & B) & C). unfold proper, channels, entry, red, green, blue. cbn [fst snd].
  apply in01_spec in A. apply in01_spec in B. apply in01_spec in C. constructor; [exact A|]. constructor; [exact B|]. constructor; [exact C|]. constructor.
Qed.

(* distinct entries: in the first half red + green + blue increases, in the second half ... *)
Definition qpairs_distinct (l : list (Q * Q * Q)) : bool :=
  (fix go (l : list (Q * Q * Q)) := match l with
    | [] => true
    | c :: l' => forallb (fun d => negb (Qeq_bool (red c) (red d) && Qeq_bool (green c) (green d) && Qeq_bool (blue c) (blue d))) l' && go l'
    end) l.
Lemma table_distinct : qpairs_distinct table = true.
Proof. vm_compute. reflexivity. Qed.
Lemma distinct_nth l : qpairs_distinct l = true -> forall i j, (i < j)%nat -> (j < List.length l)%nat ->
  ~ same_colour (nth i l (0, 0, 0)) (nth j l (0, 0, 0)).
Proof.
  induction l as [|c l IH]; intros H i j Hij Hj; [cbn in Hj; lia|]. cbn in H. apply andb_true_iff in H. destruct H as (H1 & H2).
  cbn in Hj. destruct j as [|j]; [lia|]. destruct i as [|i].
  - cbn [nth]. rewrite forallb_forall in H1. specialize (H1 (nth j l (0, 0, 0)) ltac:(apply nth_In; lia)).
    intros (A & B & C). apply Qeq_bool_iff in A. apply Qeq_bool_iff in B. apply Qeq_bool_iff in C. rewrite A, B, C in H1. discriminate.
  - cbn [nth]. apply IH; [exact H2|lia|lia].
Qed.
Lemma same_colour_trans c d e : same_colour c d -> same_colour d e -> same_colour c e.
Proof. intros (A & B & C) (D & E' & F). repeat split; etransitivity; eassumption. Qed.
Lemma same_colour_sym c d : same_colour c d -> same_colour d c.
Proof. intros (A & B & C). repeat split; symmetry; assumption. Qed.
Definition red_entry (i : nat) : Q * Q * Q :=
  (Qred (lut_entry nio_red (Z.of_nat i)), Qred (lut_entry nio_green (Z.of_nat i)), Qred (lut_entry nio_blue (Z.of_nat i))).
Lemma table_eq : table = map red_entry (seq 0 256).
Proof. reflexivity. Qed.
Lemma table_entry i : (0 <= i < 256)%Z -> same_colour (nth (Z.to_nat i) table (0, 0, 0)) (entry i).
Proof.
  intros H. rewrite table_eq. rewrite (nth_indep _ _ (red_entry 0%nat)) by (rewrite map_length, seq_length; lia).
  rewrite (map_nth red_entry), seq_nth by lia. rewrite Nat.add_0_l. unfold red_entry. rewrite Z2Nat.id by lia.
  unfold same_colour, entry, red, green, blue. cbn [fst snd]. repeat split; apply Qred_correct.
Qed.
Lemma entry_injective i j : (0 <= i < 256)%Z -> (0 <= j < 256)%Z -> same_colour (entry i) (entry j) -> i = j.
Proof.
  intros Hi Hj S0. assert (T : same_colour (nth (Z.to_nat i) table (0, 0, 0)) (nth (Z.to_nat j) table (0, 0, 0))).
  { eapply same_colour_trans; [apply table_entry; assumption|]. eapply same_colour_trans; [exact S0|]. apply same_colour_sym, table_entry. assumption. }
  assert (L : List.length table = 256%nat) by (unfold table; rewrite map_length; apply seq_length).
  destruct (Z.lt_trichotomy i j) as [X | [X | X]]; [exfalso|exact X|exfalso].
  - refine (distinct_nth _ table_distinct (Z.to_nat i) (Z.to_nat j) _ _ T); lia.
  - refine (distinct_nth _ table_distinct (Z.to_nat j) (Z.to_nat i) _ _ (same_colour_sym _ _ T)); lia.
Qed.

Lemma bin_part L v i : 0 < L -> part_of L v i -> bin ((v - - L) / (L - - L)) = i.
Proof.
  intros HL (Hi & A & B). unfold bin.
  assert (X : (v - - L) / (L - - L) == (v + L) / (2 * L)) by (field; lra).
  assert (D : 0 < 2 * L) by lra.
  destruct (Qle_bool 1 _) eqn:E1.
  - apply Qle_bool_iff in E1. rewrite X in E1. apply Qle_shift_div_l in E1 || idtac.
    assert (M : 1 * (2 * L) <= v + L). { apply (Qmult_le_r _ _ (2 * L)) in E1; [|exact D]. setoid_replace ((v + L) / (2 * L) * (2 * L)) with (v + L) in E1 by (field; lra). exact E1. }
    destruct B as [B | (B & _)]; [|lia].
    assert (inject_Z (i + 1) <= 256). { change 256 with (inject_Z 256). rewrite <- Zle_Qle. lia. }
    assert (inject_Z (i + 1) * (L / 128) <= 256 * (L / 128)). { apply Qmult_le_compat_r; [assumption|]. apply Qle_shift_div_l; lra. }
    assert (256 * (L / 128) == 2 * L) by field. lra.
  - destruct (Qle_bool _ 0) eqn:E0.
    + apply Qle_bool_iff in E0. rewrite X in E0.
      assert (M : v + L <= 0). { apply (Qmult_le_r _ _ (2 * L)) in E0; [|exact D]. setoid_replace ((v + L) / (2 * L) * (2 * L)) with (v + L) in E0 by (field; lra). lra. }
      assert (inject_Z i * (L / 128) <= 0) by lra.
      destruct (Z.eq_dec i 0) as [->|N]; [reflexivity|exfalso].
      assert (1 <= inject_Z i). { change 1 with (inject_Z 1). rewrite <- Zle_Qle. lia. }
      assert (0 < L / 128) by (apply Qlt_shift_div_l; lra).
      assert (1 * (L / 128) <= inject_Z i * (L / 128)) by (apply Qmult_le_compat_r; lra). lra.
    + assert (F : inject_Z i <= 256 * ((v - - L) / (L - - L))).
      { rewrite X. setoid_replace (256 * ((v + L) / (2 * L))) with ((128 / L) * (v + L)) by (field; lra).
        setoid_replace (inject_Z i) with ((128 / L) * (inject_Z i * (L / 128))) by (field; lra).
        assert (0 < 128 / L) by (apply Qlt_shift_div_l; lra).
        rewrite !(Qmult_comm (128 / L)). apply Qmult_le_compat_r; lra. }
      assert (G : 256 * ((v - - L) / (L - - L)) < inject_Z (i + 1)).
      { rewrite X. setoid_replace (256 * ((v + L) / (2 * L))) with ((128 / L) * (v + L)) by (field; lra).
        setoid_replace (inject_Z (i + 1)) with ((128 / L) * (inject_Z (i + 1) * (L / 128))) by (field; lra).
        assert (0 < 128 / L) by (apply Qlt_shift_div_l; lra).
        rewrite !(Qmult_comm (128 / L)). apply Qmult_lt_compat_r; [assumption|].
        destruct B as [B | (B & B')]; [lra|]. exfalso. apply not_true_iff_false in E1. apply E1. apply Qle_bool_iff. rewrite X, B'.
        setoid_replace ((L + L) / (2 * L)) with 1 by (field; lra). lra. }
      apply Z.le_antisymm.
      * apply Zlt_succ_le. rewrite Zlt_Qlt. eapply Qle_lt_trans; [apply Qfloor_le|exact G].
      * rewrite Zle_Qle. assert (T : (i <= Qfloor (256 * ((v - - L) / (L - - L))))%Z); [|rewrite <- Zle_Qle; exact T].
        rewrite <- (Qfloor_Z i). apply Qfloor_resp_le. exact F.
Qed.
Lemma map_colour_part L v i : 0 < L -> part_of L v i -> map_colour L v = entry i.
Proof. intros HL H. unfold map_colour, nio_colormap. rewrite (bin_part L v i HL H). reflexivity. Qed.
Lemma part_exists L v : 0 < L -> - L <= v <= L -> exists i, part_of L v i.
Proof.
  intros HL (A & B). destruct (Qlt_le_dec v L) as [C | C].
  - set (x := (v + L) * (128 / L)). exists (Qfloor x).
    assert (P0 : 0 < 128 / L) by (apply Qlt_shift_div_l; lra).
    assert (P1 : 0 < L / 128) by (apply Qlt_shift_div_l; lra).
    assert (x0 : 0 <= x) by (apply Qmult_le_0_compat; lra).
    assert (x1 : x < 256). { unfold x. setoid_replace 256 with ((L + L) * (128 / L)) by (field; lra). apply Qmult_lt_compat_r; lra. }
    assert (V : v == - L + x * (L / 128)) by (unfold x; field; lra).
    assert (F : inject_Z (Qfloor x) <= x) by apply Qfloor_le.
    assert (G : x < inject_Z (Qfloor x + 1)) by apply Qlt_floor.
    split; [split|split].
    + change 0%Z with (Qfloor 0). apply Qfloor_resp_le. exact x0.
    + rewrite Zlt_Qlt. change (inject_Z 256) with 256. lra.
    + assert (inject_Z (Qfloor x) * (L / 128) <= x * (L / 128)) by (apply Qmult_le_compat_r; lra). lra.
    + left. assert (x * (L / 128) < inject_Z (Qfloor x + 1) * (L / 128)) by (apply Qmult_lt_compat_r; assumption). lra.
  - exists 255%Z. split; [lia|]. assert (v == L) by lra. split.
    + change (inject_Z 255) with 255. assert (255 * (L / 128) == L + L - L / 128) by field. assert (0 < L / 128) by (apply Qlt_shift_div_l; lra). lra.
    + right. split; [reflexivity|assumption].
Qed.
Lemma bin_range x : (0 <= bin x < 256)%Z.
Proof.
  unfold bin. destruct (Qle_bool 1 x) eqn:E1; [lia|]. destruct (Qle_bool x 0) eqn:E0; [lia|].
  assert (A : ~ 1 <= x) by (rewrite <- Qle_bool_iff, E1; discriminate).
  assert (B : ~ x <= 0) by (rewrite <- Qle_bool_iff, E0; discriminate).
  split.
  - change 0%Z with (Qfloor 0). apply Qfloor_resp_le. lra.
  - rewrite Zlt_Qlt. eapply Qle_lt_trans; [apply Qfloor_le|]. change (inject_Z 256) with 256. lra.
Qed.

Theorem colours_proper L v : proper (map_colour L v).
Proof. unfold map_colour, nio_colormap. apply (entry_proper (bin _)). apply bin_range. Qed.
Theorem colours_tell_parts_apart L v w i j : 0 < L -> part_of L v i -> part_of L w j ->
  (same_colour (map_colour L v) (map_colour L w) <-> i = j).
Proof.
  intros HL A B. rewrite (map_colour_part L v i HL A), (map_colour_part L w j HL B). split.
  - apply entry_injective; [apply A|apply B].
  - intros ->. repeat split; reflexivity.
Qed.
Definition lt_b (a b : Q) : bool := negb (Qle_bool b a).
Lemma lt_b_iff a b : lt_b a b = true <-> a < b.
Proof.
  unfold lt_b. rewrite negb_true_iff, <- not_true_iff_false, Qle_bool_iff. split; intros; [|lra].
  destruct (Qlt_le_dec a b); [assumption|contradiction].
Qed.
(** signs *)
Lemma signs_b : zall (fun i => if (i <? 128)%Z then lt_b (red (entry i)) (98 # 100) && Qle_bool (red (entry i)) (green (entry i)) && Qle_bool (green (entry i)) (blue (entry i))
                             else lt_b (999 # 1000) (red (entry i))) = true.
Proof. vm_compute. reflexivity. Qed.
Theorem colours_tell_signs L v : 0 < L -> - L <= v <= L ->
  (v < 0 -> red (map_colour L v) < 98 # 100) /\ (0 <= v -> 999 # 1000 < red (map_colour L v)).
Proof.
  intros HL H. destruct (part_exists L v HL H) as (i & Hp). rewrite (map_colour_part L v i HL Hp).
  destruct Hp as (Hi & A & B). pose proof (zall_spec _ signs_b i Hi) as X. cbv beta in X.
  assert (P1 : 0 < L / 128) by (apply Qlt_shift_div_l; lra).
  assert (E1 : 128 * (L / 128) == L) by field.
  split; intros V; destruct (i <? 128)%Z eqn:C; rewrite ?andb_true_iff, ?lt_b_iff in X.
  - tauto.
  - exfalso. apply Z.ltb_ge in C. assert (128 <= inject_Z i) by (change 128 with (inject_Z 128); rewrite <- Zle_Qle; exact C).
    assert (128 * (L / 128) <= inject_Z i * (L / 128)) by (apply Qmult_le_compat_r; lra). lra.
  - exfalso. apply Z.ltb_lt in C. destruct B as [B | (B & _)]; [|lia].
    assert (inject_Z (i + 1) <= 128) by (change 128 with (inject_Z 128); rewrite <- Zle_Qle; lia).
    assert (inject_Z (i + 1) * (L / 128) <= 128 * (L / 128)) by (apply Qmult_le_compat_r; lra). lra.
  - exact X.
Qed.
(** brightness *)
Definition le3 (c d : colour) : bool := Qle_bool (red c) (red d) && Qle_bool (green c) (green d) && Qle_bool (blue c) (blue d).
Lemma rising_b : forallb (fun n => let i := Z.of_nat n in le3 (entry i) (entry (i + 1))) (seq 0 128) = true.
Proof. vm_compute. reflexivity. Qed.
Lemma falling_b : forallb (fun n => let i := Z.of_nat n in Qle_bool (green (entry (i + 1))) (green (entry i)) && Qle_bool (red (entry i)) (red (entry (i + 1)))) (seq 128 127) = true.
Proof. vm_compute. reflexivity. Qed.
Lemma brighter_trans a b c : brighter a b -> brighter b c -> brighter a c.
Proof. intros (A & B & C) (D & E' & F). repeat split; eapply Qle_trans; eassumption. Qed.
Lemma entries_rise n : forall i, (0 <= i)%Z -> (i + Z.of_nat n <= 128)%Z -> brighter (entry i) (entry (i + Z.of_nat n)).
Proof.
  induction n as [|n IH]; intros i Hi H.
  - cbn. rewrite Z.add_0_r. repeat split; apply Qle_refl.
  - eapply brighter_trans; [apply (IH i); lia|]. pose proof rising_b as X. rewrite forallb_forall in X.
    specialize (X (Z.to_nat (i + Z.of_nat n)) ltac:(apply in_seq; lia)). cbv zeta in X. rewrite Z2Nat.id in X by lia.
    replace (i + Z.of_nat (S n))%Z with (i + Z.of_nat n + 1)%Z by lia.
    unfold le3 in X. rewrite !andb_true_iff, !Qle_bool_iff in X. destruct X as ((A & B) & C). repeat split; assumption.
Qed.
Lemma parts_ordered L v w i j : 0 < L -> part_of L v i -> part_of L w j -> v <= w -> (i <= j)%Z.
Proof.
  intros HL (Hi & A & B) (Hj & C & D) V.
  assert (P1 : 0 < L / 128) by (apply Qlt_shift_div_l; lra).
  destruct (Z_le_gt_dec i j) as [X | X]; [exact X|exfalso].
  assert (inject_Z (j + 1) <= inject_Z i) by (rewrite <- Zle_Qle; lia).
  assert (inject_Z (j + 1) * (L / 128) <= inject_Z i * (L / 128)) by (apply Qmult_le_compat_r; lra).
  destruct D as [D | (D & D')]; [lra|lia].
Qed.
Theorem negative_half L v w : 0 < L -> - L <= v -> v <= w -> w < 0 -> brighter (map_colour L v) (map_colour L w).
Proof.
  intros HL A B C. destruct (part_exists L v HL ltac:(lra)) as (i & Pi). destruct (part_exists L w HL ltac:(lra)) as (j & Pj).
  rewrite (map_colour_part L v i HL Pi), (map_colour_part L w j HL Pj).
  pose proof (parts_ordered L v w i j HL Pi Pj B) as O.
  assert (J : (j < 128)%Z).
  { destruct Pj as (Hj & X & _). destruct (Z_lt_ge_dec j 128) as [Y | Y]; [exact Y|exfalso].
    assert (128 <= inject_Z j) by (change 128 with (inject_Z 128); rewrite <- Zle_Qle; lia).
    assert (P1 : 0 < L / 128) by (apply Qlt_shift_div_l; lra).
    assert (128 * (L / 128) <= inject_Z j * (L / 128)) by (apply Qmult_le_compat_r; lra). assert (128 * (L / 128) == L) by field. lra. }
  replace j with (i + Z.of_nat (Z.to_nat (j - i)))%Z by lia. apply entries_rise; destruct Pi as ((? & ?) & _); lia.
Qed.
Lemma green_falls n : forall i, (128 <= i)%Z -> (i + Z.of_nat n <= 255)%Z -> green (entry (i + Z.of_nat n)) <= green (entry i).
Proof.
  induction n as [|n IH]; intros i Hi H.
  - cbn. rewrite Z.add_0_r. apply Qle_refl.
  - eapply Qle_trans; [|apply (IH i); lia]. pose proof falling_b as X. rewrite forallb_forall in X.
    specialize (X (Z.to_nat (i + Z.of_nat n)) ltac:(apply in_seq; lia)). cbv zeta in X. rewrite Z2Nat.id in X by lia.
    replace (i + Z.of_nat (S n))%Z with (i + Z.of_nat n + 1)%Z by lia.
    rewrite !andb_true_iff, !Qle_bool_iff in X. tauto.
Qed.
Theorem positive_half L v w : 0 < L -> 0 <= v -> v <= w -> w <= L -> green (map_colour L w) <= green (map_colour L v).
Proof.
  intros HL A B C. destruct (part_exists L v HL ltac:(lra)) as (i & Pi). destruct (part_exists L w HL ltac:(lra)) as (j & Pj).
  rewrite (map_colour_part L v i HL Pi), (map_colour_part L w j HL Pj).
  pose proof (parts_ordered L v w i j HL Pi Pj B) as O.
  assert (I : (128 <= i)%Z).
  { destruct Pi as (Hi & _ & [X | (X & _)]); [|lia]. destruct (Z_le_gt_dec 128 i) as [Y | Y]; [exact Y|exfalso].
    assert (inject_Z (i + 1) <= 128) by (change 128 with (inject_Z 128); rewrite <- Zle_Qle; lia).
    assert (P1 : 0 < L / 128) by (apply Qlt_shift_div_l; lra).
    assert (inject_Z (i + 1) * (L / 128) <= 128 * (L / 128)) by (apply Qmult_le_compat_r; lra). assert (128 * (L / 128) == L) by field. lra. }
  replace j with (i + Z.of_nat (Z.to_nat (j - i)))%Z by lia. apply green_falls; destruct Pj as ((? & ?) & _); lia.
Qed.
Theorem beyond_limits L v : 0 < L -> (v < - L -> map_colour L v = map_colour L (- L)) /\ (L < v -> map_colour L v = map_colour L L).
Proof.
  intros HL. assert (X : forall v, (v - - L) / (L - - L) == (v + L) / (2 * L)) by (intros; field; lra).
  assert (I : 0 < / (2 * L)) by (apply Qinv_lt_0_compat; lra).
  unfold map_colour, nio_colormap. split; intros V.
  - assert (E1 : bin ((v - - L) / (L - - L)) = 0%Z); [|assert (E2 : bin ((- L - - L) / (L - - L)) = 0%Z); [|rewrite E1, E2; reflexivity]].
    + unfold bin. destruct (Qle_bool 1 _) eqn:C1.
      { apply Qle_bool_iff in C1. rewrite X in C1. unfold Qdiv in C1. exfalso. assert ((v + L) * / (2 * L) < 0 * / (2 * L)) by (apply Qmult_lt_compat_r; lra). lra. }
      destruct (Qle_bool _ 0) eqn:C2; [reflexivity|]. exfalso. apply not_true_iff_false in C2. apply C2, Qle_bool_iff. rewrite X. unfold Qdiv.
      assert ((v + L) * / (2 * L) < 0 * / (2 * L)) by (apply Qmult_lt_compat_r; lra). lra.
    + unfold bin. destruct (Qle_bool 1 _) eqn:C1.
      { apply Qle_bool_iff in C1. rewrite X in C1. exfalso. setoid_replace ((- L + L) / (2 * L)) with 0 in C1 by (field; lra). lra. }
      destruct (Qle_bool _ 0) eqn:C2; [reflexivity|]. exfalso. apply not_true_iff_false in C2. apply C2, Qle_bool_iff. rewrite X.
      setoid_replace ((- L + L) / (2 * L)) with 0 by (field; lra). lra.
  - assert (E1 : bin ((v - - L) / (L - - L)) = 255%Z); [|assert (E2 : bin ((L - - L) / (L - - L)) = 255%Z); [|rewrite E1, E2; reflexivity]].
    + unfold bin. destruct (Qle_bool 1 _) eqn:C1; [reflexivity|]. exfalso. apply not_true_iff_false in C1. apply C1, Qle_bool_iff. rewrite X. unfold Qdiv.
      assert ((L + L) * / (2 * L) < (v + L) * / (2 * L)) by (apply Qmult_lt_compat_r; lra). assert ((L + L) * / (2 * L) == 1) by (field; lra). lra.
    + unfold bin. destruct (Qle_bool 1 _) eqn:C1; [reflexivity|]. exfalso. apply not_true_iff_false in C1. apply C1, Qle_bool_iff. rewrite X.
      setoid_replace ((L + L) / (2 * L)) with 1 by (field; lra). lra.
Qed.
Definition near_b (eps : Q) (c d : colour) : bool :=
  Qle_bool (Qabs (red c - red d)) eps && Qle_bool (Qabs (green c - green d)) eps && Qle_bool (Qabs (blue c - blue d)) eps.
Lemma near_b_spec eps c d : near_b eps c d = true -> near_colour eps c d.
Proof. unfold near_b. rewrite !andb_true_iff, !Qle_bool_iff. intros ((A & B) & C). repeat split; assumption. Qed.
(** the seven colours along the way *)
Theorem way_stations L : 0 < L ->
  near_colour (3 # 100) (map_colour L (- L)) (0, 0, 0) /\
  near_colour (3 # 100) (map_colour L (- (2 # 3) * L)) (0, 0, 1) /\
  near_colour (3 # 100) (map_colour L (- (1 # 3) * L)) (0, 1, 1) /\
  near_colour (1 # 1000) (map_colour L 0) (1, 1, 1) /\
  near_colour (3 # 100) (map_colour L ((1 # 3) * L)) (1, 1, 0) /\
  near_colour (3 # 100) (map_colour L ((2 # 3) * L)) (1, 0, 0) /\
  near_colour (3 # 100) (map_colour L L) (1, 0, 1).
Proof.
  intros HL. assert (P : forall v i, part_of L v i -> map_colour L v = entry i) by (intros; apply map_colour_part; assumption).
  assert (P1 : 0 < L / 128) by (apply Qlt_shift_div_l; lra).
  assert (E1 : L == 128 * (L / 128)) by field. set (h := L / 128) in *.
  rewrite (P (- L) 0%Z), (P (- (2 # 3) * L) 42%Z), (P (- (1 # 3) * L) 85%Z), (P 0 128%Z), (P ((1 # 3) * L) 170%Z), (P ((2 # 3) * L) 213%Z), (P L 255%Z).
  { repeat split; apply Qle_bool_iff; vm_compute; reflexivity. }
  all: unfold part_of; fold h; (split; [lia|]); cbn [Z.add Pos.add Pos.add_carry Pos.succ]; unfold inject_Z; (split; [lra|]).
  all: try (left; lra). right. split; reflexivity.
Qed.
