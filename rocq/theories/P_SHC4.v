(** SHC files: final form of the theorems. *)
From Coq Require Import List Arith ZArith QArith Qabs Qround Ascii String Bool Lia Lqa.
From Verif Require Import M_Prelude M_Time M_Text M_SHC P_Text P_SHC P_SHC2 P_SHC3 Spec_SHC Spec_Field.
Import ListNotations.

Lemma first_degree_arg nmin a : first_degree nmin a -> nmin_arg nmin = Z.of_nat a.
Proof. unfold first_degree, nmin_arg. destruct nmin; [congruence|intros ->; reflexivity]. Qed.
Lemma last_degree_arg cols nmax b : last_degree cols nmax b -> nmax_arg cols nmax = Z.of_nat b.
Proof.
  unfold last_degree, nmax_arg. destruct nmax; [congruence|]. intros [H1 H2].
  assert (Z.sqrt (Z.of_nat cols + 1) = Z.of_nat b + 1)%Z; [|lia]. apply Z.sqrt_unique. nia.
Qed.

Lemma C47_round now fs l coeffs order path nmin nmax lp header a b :
  first_degree nmin a -> last_degree (c_cols coeffs) nmax b ->
  (1 <= a <= b)%nat -> (b * (b + 2) <= c_cols coeffs)%nat ->
  (if c_one_dim coeffs then 1%nat else c_rows coeffs) = List.length l ->
  (match header with None => True | Some h => comment_lines h end) -> ~ In "010"%char now ->
  let flag := Some (match lp with None => true | Some f => f end) in
  let k := match order with None => 1%Z | Some o => o end in
  exists fs' text s,
    save_shcfile now fs (TVec l) coeffs order path nmin nmax lp header = (fs', Ok tt) /\
    fs' (match path with None => "model.shc"%string | Some p => p end) = Some text /\
    load_shcfile text flag None = Ok s /\
    l_params s = [Z.of_nat a; Z.of_nat b; Z.of_nat (List.length l); k; (k - 1)%Z] /\
    Forall2 (fun t t' => exists y q, mjd_to_dyear t flag = Ok y /\ eight_decimals y q /\ dyear_to_mjd q flag = Ok t') l (l_time s) /\
    List.length (l_rows s) = ((b + 1) * (b + 1) - a * a)%nat /\
    forall n m i, (a <= n <= b)%nat -> (m <= n)%nat -> (i < List.length l)%nat ->
      exists row, nth_error (l_rows s) (g_position n m - (a * a - 1)) = Some row /\ List.length row = List.length l /\
        eight_decimals (c_at coeffs i (g_position n m)) (nth i row 0%Q) /\
      ((1 <= m)%nat ->
      exists row, nth_error (l_rows s) (h_position n m - (a * a - 1)) = Some row /\ List.length row = List.length l /\
        eight_decimals (c_at coeffs i (h_position n m)) (nth i row 0%Q)).
Proof.
  intros Ha Hb Hab Hc Hr Hh Hn flag k.
  destruct (C47_full now fs l coeffs order path nmin nmax lp header a b (first_degree_arg _ _ Ha) (last_degree_arg _ _ _ Hb) Hab ltac:(nia) Hr Hh Hn)
    as (fs' & t & s & A & B & C & D & E & F & G).
  exists fs', t, s. split; [exact A|]. split; [exact B|]. split; [exact C|]. split; [exact D|]. split; [exact E|]. split; [exact F|].
  intros n m i Hn1 Hm Hi.
  assert (PG : (a * a - 1 <= g_position n m < (b + 1) * (b + 1) - 1)%nat) by (unfold g_position; destruct (Nat.eqb_spec m 0); nia).
  destruct (G (g_position n m - (a * a - 1))%nat i ltac:(lia) Hi) as (row & R1 & R2 & R3).
  exists row. split; [exact R1|]. split; [exact R2|]. split.
  { replace (a * a - 1 + (g_position n m - (a * a - 1)))%nat with (g_position n m) in R3 by lia. exact R3. }
  intros Hm1.
  assert (PH : (a * a - 1 <= h_position n m < (b + 1) * (b + 1) - 1)%nat) by (unfold h_position; nia).
  destruct (G (h_position n m - (a * a - 1))%nat i ltac:(lia) Hi) as (row' & R1' & R2' & R3').
  exists row'. split; [exact R1'|]. split; [exact R2'|].
  replace (a * a - 1 + (h_position n m - (a * a - 1)))%nat with (h_position n m) in R3' by lia. exact R3'.
Qed.

(** ** C48 *)
Lemma C48_scalar_any now fs t coeffs order path nmin nmax lp header a b old :
  first_degree nmin a -> last_degree (c_cols coeffs) nmax b -> (a <= b)%nat -> fs path = Some old ->
  ~ (exists tail, old = (match header with None => [] | Some h => h end ++ txt "# Created on " ++ tail)%list) ->
  exists fs', save_shcfile now fs (TScalar t) coeffs order (Some path) nmin nmax lp header = (fs', Err TypeError) /\ fs' path <> Some old.
Proof.
  intros Ha Hb Hab Ho Hn. apply first_degree_arg in Ha. apply last_degree_arg in Hb. eexists. split; [apply C48_scalar; lia|].
  unfold write_file. rewrite String.eqb_refl. intros H. injection H as H. apply Hn. rewrite <- H. unfold comment_text. rewrite <- !app_assoc. eexists. reflexivity.
Qed.
Definition old_file : file_system := fun p => if (p =? "model.shc")%string then Some (txt "important") else None.
Definition three_coeffs : coefs := mkcoefs false 1 3 (fun _ j => inject_Z (Z.of_nat j)).
Lemma C48_false : exists now fs time coeffs order path nmin nmax lp header e fs' p old,
  save_shcfile now fs time coeffs order path nmin nmax lp header = (fs', Err e) /\ fs p = Some old /\ fs' p <> Some old.
Proof.
  exists (txt "2024"), old_file, (TVec [0%Q]), three_coeffs, None, None, None, (Some 2%Z), (Some false), None, IndexError.
  eexists. exists "model.shc"%string, (txt "important"). split; [vm_compute; reflexivity|]. split; [reflexivity|]. vm_compute. discriminate.
Qed.
