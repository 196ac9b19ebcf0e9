(** Index values from the files, and a concrete RC file. *)
From Coq Require Import Reals QArith Qreals List Arith ZArith String Ascii Bool Lia Lra.
From Verif Require Import M_Prelude M_ND M_Text M_Chaos M_RC Spec_Field Spec_Loaders Spec_Chaos Spec_RC P_SHC2 P_Chaos2 P_RC P_RC2.
Import ListNotations.
Open Scope nat_scope.

Definition no_env : env := mkenv None None None [] 0%R 0%R.
Lemma rows_same s es : rc_rows s (rc_table es) = index_rows s es.
Proof. unfold rc_rows, rc_table, index_rows. rewrite map_map. apply map_ext. intros e. destruct s; reflexivity. Qed.
Lemma values_give get es : (forall source time, get source time = rc_values (with_rc no_env (rc_table es)) source time) -> gives_index get es.
Proof.
  intros H s time Hne Hd. rewrite H. rewrite <- rows_same in *. split.
  - intros Hc. exact (rc_values_ok (with_rc no_env (rc_table es)) s time (rc_table es) eq_refl Hd Hne Hc).
  - intros (i & Hi & Hn). exact (rc_values_uncovered (with_rc no_env (rc_table es)) s time (rc_table es) i eq_refl Hi Hn).
Qed.
Theorem text_gives fs p content es : fs p = Some (FText content) -> rc_textfile content es -> gives_index (rc_from_file fs p) es.
Proof. intros Hp Hc. apply values_give. intros source time. exact (dat_values fs p content es source time no_env Hp Hc). Qed.
Theorem hdf5_same fs out dat content es source time :
  fs dat = Some (FText content) -> rc_textfile content es ->
  rc_from_file (final fs (save_RC_h5file fs true out dat)) out source time = rc_from_file fs dat source time.
Proof.
  intros Hd Hc. rewrite (dat_values fs dat content es source time no_env Hd Hc).
  destruct (Forall_Exists_dec (fun e => ascii_only (ep_flag e) = true) (fun e => bool_dec _ _) es) as [F|F].
  - destruct (save_succeeds fs out dat content es Hd Hc F) as (_ & H & _).
    refine (h5_values _ _ es _ source time no_env H _). intros ch. reflexivity.
  - destruct (save_bad_flags fs out dat content es Hd Hc) as (_ & H).
    + refine (Exists_impl _ _ F). intros e. apply not_true_is_false.
    + refine (h5_values _ _ es _ source time no_env H _). intros ch. reflexivity.
Qed.
Theorem hdf5_gives fs out dat content es : fs dat = Some (FText content) -> rc_textfile content es ->
  gives_index (rc_from_file (final fs (save_RC_h5file fs true out dat)) out) es.
Proof.
  intros Hd Hc. apply values_give. intros source time. rewrite (hdf5_same fs out dat content es source time Hd Hc).
  exact (dat_values fs dat content es source time no_env Hd Hc).
Qed.
Theorem crash_safe fs w out dat content es st : fs dat = Some (FText content) -> rc_textfile content es ->
  In st (r_states (save_RC_h5file fs w out dat)) ->
  st out = fs out \/ forall s time, rc_from_file st out (src_name s) time = Err KeyError \/
    rc_from_file st out (src_name s) time = rc_from_file fs dat (src_name s) time.
Proof.
  intros Hd Hc H.
  destruct (string_dec out out) as [_|K]; [|contradiction].
  assert (G : forall s time, st out = fs out \/ rc_from_file st out (src_name s) time = Err KeyError \/
    rc_from_file st out (src_name s) time = rc_from_file fs dat (src_name s) time).
  { intros s time. rewrite (dat_values fs dat content es (src_name s) time no_env Hd Hc).
    exact (save_crash fs w out dat content es st s time no_env Hd Hc H). }
  (* the state decides *)
  revert G. unfold save_RC_h5file in H. destruct (load_ok fs dat content es Hd Hc) as (_ & HL & _). rewrite HL in H.
  destruct w; cbn [negb] in H; [|cbn in H; destruct H as [<-|[]]; intros _; left; reflexivity].
  cbn [f_cols] in H. destruct (h5_write (rc_columns es) []) as [steps ok]. cbn [r_states] in H.
  destruct H as [<-|H]; [intros _; left; reflexivity|]. intros G. apply in_map_iff in H. destruct H as (sets & Hst & Hin).
  destruct (fs out) as [[t|sets']|] eqn:Eo.
  - right. intros s time. destruct (G s time) as [K|K]; [|exact K]. rewrite <- Hst in K. unfold update in K. rewrite String.eqb_refl in K. discriminate.
  - destruct (Classical_Prop.classic (st out = Some (FH5 sets'))) as [K|K]; [left; exact K|]. right. intros s time.
    destruct (G s time) as [K'|K']; [contradiction|exact K'].
  - right. intros s time. destruct (G s time) as [K|K]; [|exact K]. rewrite <- Hst in K. unfold update in K. rewrite String.eqb_refl in K. discriminate.
Qed.

(** ** A concrete file *)
Definition nlc : text := ["010"%char].
Definition rc_text : text :=
  (txt "# RC index" ++ nlc ++ txt "   " ++ nlc ++ txt "  0.5  -12.25 -10 -2.25 D   # definitive" ++ nlc ++
   txt "2.5e0	3 2 1 Pr" ++ nlc)%list.
Definition rc_epochs : list epoch :=
  [mkepoch (5 # 10) (- (1225 # 100)) (-10 # 1) (- (225 # 100)) (txt "D");
   mkepoch (25 # 10) 3 2 1 (txt "Pr")].
Ltac word_number := unfold number; vm_compute; reflexivity.
Lemma rc_example : rc_textfile rc_text rc_epochs.
Proof.
  unfold rc_textfile. change (lines rc_text) with [txt "# RC index"; txt "   "; txt "  0.5  -12.25 -10 -2.25 D   # definitive"; txt "2.5e0	3 2 1 Pr"].
  apply rc_idle; [right; eexists; reflexivity|].
  apply rc_idle; [left; repeat constructor|].
  apply rc_epoch.
  { exists (txt "  0.5  -12.25 -10 -2.25 D   "), (txt "# definitive"), (txt "0.5"), (txt "-12.25"), (txt "-10"), (txt "-2.25").
    split; [reflexivity|]. split; [cbn; intuition discriminate|]. split; [right; eexists; reflexivity|].
    split; [reflexivity|]. repeat (split; [word_number|]). cbn; intuition discriminate. }
  apply rc_epoch.
  { exists (txt "2.5e0	3 2 1 Pr"), [], (txt "2.5e0"), (txt "3"), (txt "2"), (txt "1").
    split; [reflexivity|]. split; [cbn; intuition discriminate|]. split; [left; reflexivity|].
    split; [reflexivity|]. repeat (split; [word_number|]). cbn; intuition discriminate. }
  apply rc_end.
Qed.
Definition rc_fs : fsys := fun p => if (p =? "RC.dat")%string then Some (FText rc_text) else None.
Lemma rc_flags_ascii : Forall (fun e => ascii_only (ep_flag e) = true) rc_epochs.
Proof. repeat constructor. Qed.

Lemma rc_example_distinct s : distinct_times (index_rows s rc_epochs).
Proof.
  unfold distinct_times, index_rows, rc_epochs. cbn [map fst ep_time]. constructor; [|constructor; [intros []|constructor]].
  intros [H|[]]. revert H. unfold Q2R. cbn. lra.
Qed.
Definition rc_time : nd R := mknd [1] (fun _ => 1%R).
Lemma rc_example_covered s i : valid (sh rc_time) i -> covered (index_rows s rc_epochs) (at_ rc_time i).
Proof.
  intros _. cbn [rc_time at_]. unfold index_rows, rc_epochs. cbn [map fst ep_time].
  eexists _, _. split; [left; reflexivity|]. split; [right; left; reflexivity|]. cbn [fst ep_time]. unfold Q2R. cbn. lra.
Qed.

(** a flag that is not ASCII *)
Definition rc_text_utf8 : text := (txt "1 2 3 4 " ++ ["195"%char; "151"%char] ++ nlc)%list.
Definition rc_epochs_utf8 : list epoch := [mkepoch 1 2 3 4 ["195"%char; "151"%char]].
Lemma rc_example_utf8 : rc_textfile rc_text_utf8 rc_epochs_utf8 /\ Exists (fun e => ascii_only (ep_flag e) = false) rc_epochs_utf8.
Proof.
  split; [|left; reflexivity]. unfold rc_textfile.
  change (lines rc_text_utf8) with [(txt "1 2 3 4 " ++ ["195"%char; "151"%char])%list].
  apply rc_epoch; [|apply rc_end]. exists (txt "1 2 3 4 " ++ ["195"%char; "151"%char])%list, [], (txt "1"), (txt "2"), (txt "3"), (txt "4").
  split; [reflexivity|]. split; [cbn; intuition discriminate|]. split; [left; reflexivity|].
  split; [reflexivity|]. repeat (split; [word_number|]). cbn; intuition discriminate.
Qed.
