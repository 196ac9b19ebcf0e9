(** Theorems about SHC files (C47, C48). *)
From Coq Require Import List Arith ZArith QArith Qabs Ascii String Bool.
From Verif Require Import M_Prelude M_Time M_Text M_SHC Spec_SHC Spec_Field P_SHC3 P_SHC4.
Import ListNotations.

(** ** C47 *)
(** Saving succeeds and loading the written text gives back the parameters, the
    times and, for every degree and order, the coefficients rounded to eight
    decimals, in the rows of the standard coefficient order. *)
Theorem C47_round_trip : forall now fs l coeffs order path nmin nmax lp header a b,
  first_degree nmin a -> last_degree (c_cols coeffs) nmax b ->
  (1 <= a <= b)%nat -> (b * (b + 2) <= c_cols coeffs)%nat ->
  (if c_one_dim coeffs then 1%nat else c_rows coeffs) = List.length l ->
  (match header with None => True | Some h => comment_lines h end) -> ~ In "010"%char now ->
  let flag := Some (match lp with None => true | Some f => f end) in
  let k := match order with None => 1%Z | Some o => o end in
  exists fs' text s,
    save_shcfile now fs (TVec l) coeffs order path nmin nmax lp header = (fs', Ok tt) /\
    fs' (match path with None => "model.shc"%string | Some p => p end) = Some text /\
    load_shcfile text flag None = Ok s /\
    l_params s = [Z.of_nat a; Z.of_nat b; Z.of_nat (List.length l); k; (k - 1)%Z] /\
    Forall2 (fun t t' => exists y q, mjd_to_dyear t flag = Ok y /\ eight_decimals y q /\ dyear_to_mjd q flag = Ok t') l (l_time s) /\
    List.length (l_rows s) = ((b + 1) * (b + 1) - a * a)%nat /\
    forall n m i, (a <= n <= b)%nat -> (m <= n)%nat -> (i < List.length l)%nat ->
      exists row, nth_error (l_rows s) (g_position n m - (a * a - 1)) = Some row /\ List.length row = List.length l /\
        eight_decimals (c_at coeffs i (g_position n m)) (nth i row 0%Q) /\
      ((1 <= m)%nat ->
      exists row, nth_error (l_rows s) (h_position n m - (a * a - 1)) = Some row /\ List.length row = List.length l /\
        eight_decimals (c_at coeffs i (h_position n m)) (nth i row 0%Q)).
Proof. exact C47_round. Qed.

(** Eight decimals of a year keep the time to two microdays. *)
Theorem C47_times_within_two_microdays : forall t lp y q t',
  (match lp with Some false => True | _ => (-106650 <= t)%Q /\ (t < 107016)%Q end) ->
  mjd_to_dyear t lp = Ok y -> eight_decimals y q -> dyear_to_mjd q lp = Ok t' -> (Qabs (t' - t) <= 2 # 1000000)%Q.
Proof. exact C47_time. Qed.

(** The degree and order labels written at the beginning of each row. *)
Theorem C47_row_labels : forall nmin nmax n m, (1 <= nmin <= n)%nat -> (n <= nmax)%nat -> (m <= n)%nat ->
  nth_error (deg_ord nmin nmax) (g_position n m - (nmin * nmin - 1)) = Some (n, Z.of_nat m) /\
  ((1 <= m)%nat -> nth_error (deg_ord nmin nmax) (h_position n m - (nmin * nmin - 1)) = Some (n, (- Z.of_nat m)%Z)).
Proof. exact C47_label. Qed.

Example C47_hypotheses_met : exists now fs l coeffs a b,
  first_degree (Some 2%Z) a /\ last_degree (c_cols coeffs) None b /\ (1 <= a <= b)%nat /\ (b * (b + 2) <= c_cols coeffs)%nat /\
  (if c_one_dim coeffs then 1%nat else c_rows coeffs) = List.length l /\ comment_lines (txt "# a
# b
") /\ ~ In "010"%char now /\
  exists fs' text s, save_shcfile now fs (TVec l) coeffs None (Some "x.shc"%string) (Some 2%Z) None None (Some (txt "# a
# b
")) = (fs', Ok tt) /\ fs' "x.shc"%string = Some text /\ load_shcfile text None None = Ok s /\
    map (map Qred) (l_rows s) = map (fun j => map (fun i => (inject_Z (Z.of_nat (i + j)) - (1 # 2))%Q) [0; 1]%nat) [3; 4; 5; 6; 7]%nat.
Proof.
  exists (txt "2024-01-01"), (fun _ => None), [0%Q; 100.25%Q], (mkcoefs false 2 8 (fun i j => (inject_Z (Z.of_nat (i + j)) - (1 # 2))%Q)), 2%nat, 2%nat.
  split; [reflexivity|]. split; [split; cbn; repeat constructor|]. split; [split; repeat constructor|]. split; [cbn; repeat constructor|]. split; [reflexivity|].
  split; [exists [txt " a"; txt " b"]; split; [reflexivity|]; repeat constructor; cbn; intuition discriminate|].
  split; [cbn; intuition discriminate|].
  eexists. eexists. eexists. split; [vm_compute; reflexivity|]. split; [vm_compute; reflexivity|]. split; [vm_compute; reflexivity|]. vm_compute. reflexivity.
Qed.

(** ** C48: false once the file has been opened *)
(** A degree beyond the coefficients: IndexError in the middle of the file. *)
Theorem C48_failing_save_keeps_file_refuted : exists now fs time coeffs order path nmin nmax lp header e fs' p old,
  save_shcfile now fs time coeffs order path nmin nmax lp header = (fs', Err e) /\ fs p = Some old /\ fs' p <> Some old.
Proof. exact C48_false. Qed.
(** A scalar time, which is documented, always raises and overwrites the file. *)
Theorem C48_scalar_time_refuted : forall now fs t coeffs order path nmin nmax lp header a b old,
  first_degree nmin a -> last_degree (c_cols coeffs) nmax b -> (a <= b)%nat -> fs path = Some old ->
  ~ (exists tail, old = (match header with None => [] | Some h => h end ++ txt "# Created on " ++ tail)%list) ->
  exists fs', save_shcfile now fs (TScalar t) coeffs order (Some path) nmin nmax lp header = (fs', Err TypeError) /\ fs' path <> Some old.
Proof. exact C48_scalar_any. Qed.

(** Missing: errors after the file is opened.  Errors found before leave every
    file alone, and other files are never touched. *)
Theorem C48_early_errors_keep_files_partial : forall now fs time coeffs order path nmin nmax lp header,
  (match nmax with None => Z.sqrt (Z.of_nat (c_cols coeffs) + 1) - 1 | Some n => n end < match nmin with None => 1 | Some n => n end)%Z \/
  (match nmin with None => 1 | Some n => n end < 0)%Z ->
  save_shcfile now fs time coeffs order path nmin nmax lp header = (fs, Err ValueError).
Proof. exact C48_early. Qed.
Theorem C48_other_files_untouched_partial : forall now fs time coeffs order path nmin nmax lp header p,
  p <> match path with None => "model.shc"%string | Some q => q end ->
  fst (save_shcfile now fs time coeffs order path nmin nmax lp header) p = fs p.
Proof. exact C48_other. Qed.

Example C48_early_met : exists fs, save_shcfile (txt "now") fs (TVec [0%Q]) three_coeffs None None (Some 3%Z) (Some 2%Z) None None = (fs, Err ValueError) /\ fs "model.shc"%string = Some (txt "important").
Proof. exists old_file. split; reflexivity. Qed.

Print Assumptions C47_round_trip.
Print Assumptions C47_times_within_two_microdays.
Print Assumptions C47_row_labels.
Print Assumptions C48_failing_save_keeps_file_refuted.
Print Assumptions C48_scalar_time_refuted.
Print Assumptions C48_early_errors_keep_files_partial.
Print Assumptions C48_other_files_untouched_partial.
