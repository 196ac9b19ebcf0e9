(** RC files with gaps. *)
From Coq Require Import Reals QArith Qreals List Arith ZArith String Ascii Bool Lia.
From Verif Require Import M_Prelude M_ND M_Text M_Chaos M_RC Spec_Loaders Spec_Chaos Spec_RC P_SHC2 P_RC P_RC2 W_RC.
Import ListNotations.
Open Scope nat_scope.

Lemma in_ascii_iff w : ascii_only w = true <-> in_ascii w.
Proof.
  unfold ascii_only, in_ascii. rewrite forallb_forall, Forall_forall. split; intros H c Hc; specialize (H c Hc); apply Nat.ltb_lt; assumption.
Qed.
Lemma text_eqb_refl w : text_eqb w w = true.
Proof. unfold text_eqb. destruct (list_eq_dec ascii_dec w w); [reflexivity|contradiction]. Qed.
Lemma na_true w : In w missing_words -> is_na w = true.
Proof.
  intros H. unfold is_na. apply existsb_exists. exists w. split; [right; exact H|apply text_eqb_refl].
Qed.
Definition row_fields (ws : list text) (r : row) : Prop :=
  1 <= List.length ws <= 5 /\ Forall (fun w => w <> []) ws /\
  number_or_gap (nth_error ws 0) (rw_time r) /\ number_or_gap (nth_error ws 1) (rw_rc r) /\
  number_or_gap (nth_error ws 2) (rw_e r) /\ number_or_gap (nth_error ws 3) (rw_i r) /\ flag_or_gap (nth_error ws 4) (rw_flag r).
Lemma row_fields_of ls rs : row_lines ls rs -> Forall2 row_fields (fields_of ls) rs.
Proof.
  induction 1 as [|l ls es Hi H IH|l e ls es He H IH].
  - constructor.
  - rewrite (fields_idle _ _ Hi). exact IH.
  - destruct He as (body & rest & -> & Hb & Hr & Hl & A).
    rewrite (fields_kept _ _ _ Hb Hr) by (intros K; rewrite K in Hl; cbn in Hl; lia).
    constructor; [|exact IH]. split; [exact Hl|]. split; [apply words_nonempty|exact A].
Qed.
Lemma float_cell_gap w c : number_or_gap w c -> float_cell w = Ok c.
Proof.
  intros [|x H|x q H]; [reflexivity| |apply float_cell_number, H]. cbn [float_cell]. rewrite (na_true _ H). reflexivity.
Qed.
Lemma col_gap ws rs k (f : row -> option Q) : Forall2 row_fields ws rs ->
  (forall w r, row_fields w r -> number_or_gap (nth_error w k) (f r)) ->
  mapM float_cell (map (fun r => nth_error r (0 + k)) ws) = Ok (map f rs).
Proof.
  intros H Hk. cbn [Nat.add]. induction H as [|w r ws rs Hr H IH]; [reflexivity|].
  cbn [map mapM]. rewrite (float_cell_gap _ _ (Hk _ _ Hr)). cbn [bind]. rewrite IH. reflexivity.
Qed.
Lemma flag_gap ws rs : Forall2 row_fields ws rs -> map cat_cell (map (fun r => nth_error r (0 + 4)) ws) = map rw_flag rs.
Proof.
  intros H. cbn [Nat.add]. induction H as [|w r ws rs Hr H IH]; [reflexivity|]. cbn [map]. rewrite IH. f_equal.
  destruct Hr as (_ & N & _ & _ & _ & _ & F). destruct (nth_error w 4) as [x|] eqn:E; inversion F as [|? A|? A]; subst; cbn [cat_cell].
  - rewrite (na_true _ A). reflexivity.
  - rewrite na_false; [reflexivity| |exact A]. rewrite Forall_forall in N. apply N. exact (nth_error_In _ _ E).
  - reflexivity.
Qed.
Definition row_columns (rs : list row) : list (string * column) :=
  [("time", CFloat (map rw_time rs)); ("RC", CFloat (map rw_rc rs)); ("RC_e", CFloat (map rw_e rs)); ("RC_i", CFloat (map rw_i rs));
   ("flag", CCat (map rw_flag rs))]%string.
Lemma read_gaps content rs : row_lines (lines content) rs -> read_csv content = Ok (mkframe Rows (row_columns rs)).
Proof.
  intros H. apply row_fields_of in H. unfold read_csv. change (List.length column_names) with 5. rewrite csv_unfold. cbv zeta.
  set (ws := fields_of (lines content)) in *. clearbody ws.
  assert (W : match ws with [] => 5 | r :: _ => Nat.max 5 (List.length r) end = 5).
  { destruct H as [|w r ws rs Hr H]; [reflexivity|]. destruct Hr as [? _]. lia. }
  rewrite W. assert (B : forallb (fun r : list text => List.length r <=? 5) ws = true).
  { clear W. induction H as [|w r ws rs Hr H IH]; [reflexivity|]. cbn [forallb]. rewrite IH, andb_true_r. apply Nat.leb_le. destruct Hr. lia. }
  rewrite B. cbn [bind]. change (5 - 5) with 0. unfold column_names. cbn [combine seq mapM]. unfold read_column. cbn [String.eqb Ascii.eqb Bool.eqb].
  rewrite (col_gap ws rs 0 rw_time H), (col_gap ws rs 1 rw_rc H), (col_gap ws rs 2 rw_e H), (col_gap ws rs 3 rw_i H)
    by (intros w r (_ & _ & A & A2 & A3 & A4 & _); assumption).
  cbn [bind]. rewrite (flag_gap ws rs H). reflexivity.
Qed.
Lemma load_gaps fs p content rs : fs p = Some (FText content) -> row_lines (lines content) rs ->
  load_RC_datfile fs p None = Ok (mkframe Rows (row_columns rs)) /\
  load_RC_datfile fs p (Some false) = Ok (mkframe Rows (row_columns rs)) /\
  load_RC_datfile fs p (Some true) = Ok (mkframe (Dates (map rw_time rs)) (tl (row_columns rs))).
Proof.
  intros Hp H. unfold load_RC_datfile. rewrite Hp, (read_gaps _ _ H). cbn [bind]. split; [reflexivity|]. split; reflexivity.
Qed.

Definition stored_flag (f : option text) : text := match f with None => txt "n" | Some w => firstn 1 w end.
Lemma bytes_gaps fl : Forall (fun f => match f with None => True | Some w => in_ascii w end) fl ->
  exists b, mapM to_bytes fl = Ok b /\ map trunc1 b = map stored_flag fl.
Proof.
  induction 1 as [|f fl Hf H (b & IH & E)]; [exists []; split; reflexivity|].
  destruct f as [w|]; cbn [mapM to_bytes].
  - rewrite (proj2 (in_ascii_iff w) Hf), IH. cbn [bind]. eexists. split; [reflexivity|]. cbn [map]. rewrite E. reflexivity.
  - rewrite IH. cbn [bind]. eexists. split; [reflexivity|]. cbn [map]. rewrite E. reflexivity.
Qed.
Lemma save_gaps fs out dat content rs : fs dat = Some (FText content) -> row_lines (lines content) rs ->
  Forall (fun r => match rw_flag r with None => True | Some w => in_ascii w end) rs ->
  let r := save_RC_h5file fs true out dat in
  r_success r = true /\
  final fs r out = Some (FH5 [("time", DFloat (map rw_time rs)); ("RC", DFloat (map rw_rc rs)); ("RC_e", DFloat (map rw_e rs));
     ("RC_i", DFloat (map rw_i rs)); ("flag", DBytes (map (fun r => match rw_flag r with None => txt "n" | Some w => firstn 1 w end) rs))]%string).
Proof.
  intros Hp H A. cbv zeta. unfold save_RC_h5file. destruct (load_gaps fs dat content rs Hp H) as (_ & -> & _).
  cbn [f_cols negb]. destruct (bytes_gaps (map rw_flag rs)) as (b & E & F).
  { rewrite Forall_map. exact A. }
  unfold row_columns. cbn [h5_write String.eqb Ascii.eqb Bool.eqb negb]. rewrite E. cbn [app map]. split; [reflexivity|].
  unfold final. cbn [r_states last]. unfold update. rewrite String.eqb_refl, F, map_map. reflexivity.
Qed.
Lemma saves_epochs fs out dat content es :
  fs dat = Some (FText content) -> rc_textfile content es -> Forall (fun e => in_ascii (ep_flag e)) es ->
  let r := save_RC_h5file fs true out dat in
  r_success r = true /\ final fs r out = Some (rc_h5 es (map (fun e => firstn 1 (ep_flag e)) es)) /\
  forall p, p <> out -> final fs r p = fs p.
Proof.
  intros H K A. apply (save_succeeds fs out dat content es H K). revert A. apply Forall_impl. intros e. apply in_ascii_iff.
Qed.
Lemma saves_bad fs out dat content es :
  fs dat = Some (FText content) -> rc_textfile content es -> Exists (fun e => ~ in_ascii (ep_flag e)) es ->
  let r := save_RC_h5file fs true out dat in
  r_success r = false /\ final fs r out = Some (rc_h5 es (map (fun _ => []) es)).
Proof.
  intros H K A. apply (save_bad_flags fs out dat content es H K). revert A. apply Exists_impl. intros e N.
  destruct (ascii_only (ep_flag e)) eqn:E; [|reflexivity]. exfalso. apply N, in_ascii_iff, E.
Qed.
Lemma ascii_epochs : Forall (fun e => in_ascii (ep_flag e)) rc_epochs.
Proof. pose proof rc_flags_ascii as H. revert H. apply Forall_impl. intros e. apply in_ascii_iff. Qed.
Lemma utf8_epochs : Exists (fun e => ~ in_ascii (ep_flag e)) rc_epochs_utf8.
Proof. destruct rc_example_utf8 as [_ H]. revert H. apply Exists_impl. intros e E N. apply in_ascii_iff in N. congruence. Qed.
(** a file with gaps *)
Definition gap_text : text := (txt "# header" ++ nlc ++ txt "6000.5 -1.5 nan 2 D" ++ nlc ++ txt " 6000.75 NA 1e1 # no flag" ++ nlc)%list.
Definition gap_rows : list row :=
  [mkrow (Some (60005 # 10)) (Some (-15 # 10)) None (Some 2%Q) (Some (txt "D")); mkrow (Some (600075 # 100)) None (Some 10%Q) None None].
Lemma gap_example : row_lines (lines gap_text) gap_rows.
Proof.
  change (lines gap_text) with [txt "# header"; txt "6000.5 -1.5 nan 2 D"; txt " 6000.75 NA 1e1 # no flag"].
  apply rl_idle; [right; eexists; reflexivity|].
  apply rl_row.
  { exists (txt "6000.5 -1.5 nan 2 D"), []. split; [reflexivity|]. split; [cbn; intuition discriminate|]. split; [left; reflexivity|].
    change (words (txt "6000.5 -1.5 nan 2 D")) with [txt "6000.5"; txt "-1.5"; txt "nan"; txt "2"; txt "D"]. cbn [nth_error List.length rw_time rw_rc rw_e rw_i rw_flag].
    split; [lia|]. split; [apply ng_number; reflexivity|]. split; [apply ng_number; reflexivity|]. split; [apply ng_word; cbn; tauto|].
    split; [apply ng_number; reflexivity|]. apply fg_flag. cbn. intuition discriminate. }
  apply rl_row.
  { exists (txt " 6000.75 NA 1e1 "), (txt "# no flag"). split; [reflexivity|]. split; [cbn; intuition discriminate|]. split; [right; eexists; reflexivity|].
    change (words (txt " 6000.75 NA 1e1 ")) with [txt "6000.75"; txt "NA"; txt "1e1"]. cbn [nth_error List.length rw_time rw_rc rw_e rw_i rw_flag].
    split; [lia|]. split; [apply ng_number; reflexivity|]. split; [apply ng_word; cbn; tauto|]. split; [apply ng_number; reflexivity|].
    split; [apply ng_absent|]. apply fg_absent. }
  constructor.
Qed.
