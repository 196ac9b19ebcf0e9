(** Witnesses for Props_Chaos: a small but complete model. *)
From Coq Require Import Reals List Arith ZArith String Ascii Bool Lia Lra.
From Coquelicot Require Import Complex.
From Verif Require Import M_Prelude M_ND Spec_Field Spec_PP Spec_Rotate Spec_Chaos M_Synth M_SynthArr M_PP M_Spectrum M_Model M_Rotate M_Chaos Spec_ChaosApi
  P_ND P_Bcast P_PP P_PP2 P_Chaos P_Chaos2 P_Chaos3 P_Chaos4 P_Chaos5 P_Chaos6.
Import ListNotations.
Open Scope R_scope.

Definition w_file : rotfile :=
  mkrot (mknd [2; 3; 3]%nat (fun i => INR (nth 0 i 0%nat)))
        (mknd [2; 3; 3]%nat (fun i => (INR (nth 1 i 0%nat), 1)))
        (mknd [1; 3; 3]%nat (fun _ => 1)) (mknd [1; 3; 3]%nat (fun i => (1, INR (nth 2 i 0%nat)))) (FlagArray true) [1; 2; 3].

(** rows not in order *)
Definition w_table : rctable := [(2, 10, 5); (0, 4, 1); (1, 6, 2)].
Definition w_env : env := mkenv (Some w_file) (Some w_file) (Some w_table) [1; 2; 3] 6371.2 0.
Definition w_delta (a : R) : delta := mkdelta [0; 1; 2] 2 (fun r i => a + INR r + INR i).

Definition w_init : result chaos :=
  chaos_init [0; 1; 3] None (Some (mkc3 2 2 8 (fun r i d => INR (r + i + d)))) (Some (mkc3 1 1 15 (fun _ _ d => INR d)))
    (Some [10; 20; 30]) (Some [3; 2; 1]) (Some (w_delta 0, w_delta 1, w_delta 2)) None None None None MetaNone.
Definition w_chaos : chaos := match w_init with Ok c => c | Err _ => mkchaos None None None None None None None end.
Lemma w_chaos_init : w_init = Ok w_chaos. Proof. reflexivity. Qed.

Definition w_time : nd R := vec 0 [1/2; 3/2].
Definition w_radius : nd R := scalar 6800.
Definition w_theta : nd R := vec 0 [0; 45].
Definition w_phi : nd R := scalar (-30).
Definition w_rc : nd R := scalar 7.

Lemma w_rot : rot_file w_file 2 1 3 3. Proof. split; reflexivity. Qed.
Lemma w_good3 (a b c : R) : a < b < c -> good_breaks [a; b; c].
Proof. intros H. split; [cbn; lia|]. intros i Hi. cbn in Hi. destruct i as [|[|i]]; cbn; [lra|lra|lia]. Qed.
Lemma w_fits : bfits (sh w_rc) (sh w_time). Proof. apply bfits_nil. Qed.

Lemma w_call_any sources : exists B, call w_env w_chaos w_time w_radius w_theta w_phi (Some w_rc) (Some w_rc) sources None = Ok B /\ o_sh B = [2]%nat.
Proof.
  apply (call_complete w_env [0; 1; 3] 2 8 (fun r i d => INR (r + i + d)) 15 (fun _ _ d => INR d) [10; 20; 30] [3; 2; 1] (w_delta 0) (w_delta 1) (w_delta 2)
    None None None None MetaNone w_chaos w_file w_file 2 1 2 1 1 1).
  - exact w_chaos_init.
  - apply w_good3; lra.
  - lia.
  - lia.
  - lia.
  - discriminate.
  - apply w_good3; lra.
  - apply w_good3; lra.
  - apply w_good3; lra.
  - reflexivity.
  - reflexivity.
  - lia.
  - reflexivity.
  - exact w_rot.
  - reflexivity.
  - reflexivity.
  - lia.
  - reflexivity.
  - exact w_rot.
  - exact w_fits.
  - exact w_fits.
  - cbn. discriminate.
  - cbn. discriminate.
  - intros t Ht. cbn in Ht. destruct Ht as [<-|[<-|[]]]; lra.
  - reflexivity.
Qed.

Lemma w_call : exists B, call w_env w_chaos w_time w_radius w_theta w_phi (Some w_rc) (Some w_rc) SrcNone None = Ok B /\ o_sh B = [2]%nat.
Proof. apply w_call_any. Qed.

Lemma w_hyps : exists f gsm sm q10 q11 s11,
  ch_gsm w_chaos = Some gsm /\ ch_static w_chaos <> None /\ e_gsm w_env = Some f /\ e_sm w_env = Some f /\ rf_dipole f = e_dipole w_env /\
  elems w_time <> [] /\ List.length gsm = 3%nat /\ rot_file f 2 1 3 3 /\ spectra3 f /\
  ch_sm w_chaos = Some sm /\ List.length sm = 3%nat /\ ch_delta w_chaos = Some (q10, q11, s11) /\
  good_breaks (d_breaks q10) /\ good_breaks (d_breaks q11) /\ good_breaks (d_breaks s11) /\ bfits (sh w_rc) (sh w_time) /\
  exists B, call w_env w_chaos w_time w_radius w_theta w_phi (Some w_rc) (Some w_rc) SrcNone None = Ok B /\ o_sh B = [2]%nat.
Proof.
  exists w_file, [3; 2; 1], [10; 20; 30], (w_delta 0), (w_delta 1), (w_delta 2).
  split; [reflexivity|]. split; [discriminate|]. do 3 (split; [reflexivity|]). split; [cbn; discriminate|]. split; [reflexivity|].
  split; [exact w_rot|]. split; [exists 2%nat, 1%nat, 3%nat, 3%nat; repeat split|]. do 3 (split; [reflexivity|]).
  do 3 (split; [apply w_good3; lra|]). split; [exact w_fits|]. exact w_call.
Qed.

Lemma w_rc_ok : exists tab, e_rc w_env = Some tab /\ forall s,
  distinct_times (rc_rows s tab) /\ (forall i, valid (sh w_time) i -> covered (rc_rows s tab) (at_ w_time i)) /\
  ~ covered (rc_rows s tab) 5.
Proof.
  exists w_table. split; [reflexivity|]. intros s.
  assert (ER : rc_rows s w_table = [(2, match s with External => 10 | Internal => 5 end); (0, match s with External => 4 | Internal => 1 end); (1, match s with External => 6 | Internal => 2 end)]) by (destruct s; reflexivity).
  rewrite ER. split; [|split].
  - unfold distinct_times. cbn [map fst]. repeat (apply NoDup_cons; [cbn; intros H; repeat (destruct H as [H|H]; [lra|]); exact H|]). apply NoDup_nil.
  - intros i Hi. assert (HT : 0 <= at_ w_time i <= 2).
    { pose proof (elems_in w_time i Hi) as H. revert H. generalize (at_ w_time i). intros v H. cbn in H. destruct H as [H|[H|[]]]; rewrite <- H; lra. }
    exists (0, match s with External => 4 | Internal => 1 end), (2, match s with External => 10 | Internal => 5 end).
    split; [right; left; reflexivity|]. split; [left; reflexivity|]. exact HT.
  - intros (p & q & _ & Hq & _ & H). cbn in Hq. destruct Hq as [Hq|[Hq|[Hq|[]]]]; subst q; cbn in H; lra.
Qed.

Lemma w_euler : exists c r, chaos_init [0; 2] None None None None None None
    (Some [("a"%string, [0; 1]); ("b"%string, [0; 1; 2])]) (Some [("b"%string, mkc3 1 2 3 (fun _ i d => INR (i + d))); ("a"%string, mkc3 1 1 3 (fun _ _ _ => 0))])
    None None MetaPlain = Ok c /\ synth_euler_angles c (scalar (3/2)) "b" None None XNone = Ok r /\ s_at r [] 2%nat = Some 3.
Proof.
  assert (G : good_breaks [0; 1; 2]) by (apply w_good3; lra).
  match goal with |- exists c r, ?i = Ok c /\ _ => assert (HI : exists c, i = Ok c) by (eexists; reflexivity) end.
  destruct HI as (c & HI).
  assert (ND : NoDup (map fst [("a"%string, [0; 1]); ("b"%string, [0; 1; 2])])).
  { cbn. repeat (apply NoDup_cons; [cbn; intros H; repeat (destruct H as [H|H]; [discriminate|]); exact H|]). apply NoDup_nil. }
  destruct (euler_ok _ _ _ _ _ _ _ _ _ _ _ _ _ "b"%string [0; 1; 2] 3 (fun _ i d => INR (i + d)) (scalar (3/2)) HI ND) as (r & ER & _).
  - right. left. reflexivity.
  - reflexivity.
  - exact G.
  - lia.
  - cbn. discriminate.
  - exists c, r. split; [exact HI|]. split; [exact ER|].
    assert (V : s_at r [] 2%nat = Some (INR (1 + 2))).
    { apply (euler_value _ _ _ _ _ _ _ _ _ _ _ _ _ "b"%string [0; 1; 2] 3 (fun _ i d => INR (i + d)) (scalar (3/2)) r [] 1 2 HI ND).
      - right. left. reflexivity.
      - reflexivity.
      - exact G.
      - exact ER.
      - constructor.
      - lia.
      - split; [cbn; lia|]. cbn. split; [lra|left; lra]. }
    rewrite V. cbn. f_equal. lra.
Qed.
