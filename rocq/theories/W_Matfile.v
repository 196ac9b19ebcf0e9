(** Concrete models for the theorems about MAT-files. *)
From Coq Require Import Reals List Arith ZArith String Bool Lia Lra DecimalString DecimalNat.
From Verif Require Import M_Prelude M_ND Spec_Field Spec_PP M_SynthArr M_PP M_Spectrum M_Model M_Rotate M_Chaos M_Matfile Spec_Matfile P_ND P_SHC2 P_SHCModel P_Chaos P_Chaos4 P_Matfile P_Matfile2 P_Matfile3 P_Matfile4 P_Matfile5 P_Matfile6 P_Matfile7 P_Matfile8.
Import ListNotations.
Open Scope R_scope.

Definition v_breaks : list R := [0; 1; 3].
Definition v_ct : c3 := mkc3 2 2 8 (fun r i d => INR (r + i + d)).
Definition v_static : c3 := mkc3 1 1 15 (fun _ _ d => INR d).
Definition v_sm : list R := [10; 20; 30; 1; 2; 3; 4; 5].
Definition v_gsm : list R := [7; 0; 0; 8; 0; 0; 0; 0].
Definition v_gsm_full : list R := [7; 1; 0; 8; 0; 0; 0; 0].
Definition v_delta (k : nat) : delta := mkdelta [0; 1; 2] 1 (fun _ i => INR (i + k)).
Definition v_deltas := (v_delta 1, v_delta 2, v_delta 3).
Definition v_short (k : nat) : delta := mkdelta [0; 1] 1 (fun _ i => INR (i + k)).
Definition v_lb : list (string * list R) := [("a"%string, [0]); ("b"%string, [0; 1; 2])].
Definition v_lc : list (string * c3) :=
  [("a"%string, mkc3 1 1 3 (fun _ i d => INR (i + d))); ("b"%string, mkc3 1 2 3 (fun _ i d => INR (i * d)))].
Definition v_cal : c3 := mkc3 1 1 9 (fun _ _ d => INR d).
Definition v_pre : list (list R) := [[1; 2; 3]; [4; 5; 6]].

Lemma v_init g : exists c, chaos_init v_breaks None (Some v_ct) (Some v_static) (Some v_sm) (Some g) (Some v_deltas)
  (Some v_lb) (Some v_lc) (Some [("x"%string, [0; 5])]) (Some [("x"%string, v_cal)]) (MetaPre v_pre) = Ok c.
Proof. eexists. reflexivity. Qed.

Lemma v_angles : forall s br, In (s, br) v_lb -> exists K, lookup s v_lc = Some K /\ good_angles br K.
Proof.
  intros s br [H|[H|[]]]; injection H as <- <-; eexists; (split; [reflexivity|]); repeat split.
  - left. reflexivity.
  - right. split; [cbn; lia|cbn; lra].
Qed.

Lemma v_bins : exists s1 b1 s2 b2, In (s1, b1) v_lb /\ In (s2, b2) v_lb /\ bins b1 <> bins b2.
Proof.
  exists "a"%string, [0], "b"%string, [0; 1; 2]. split; [left; reflexivity|]. split; [right; left; reflexivity|]. cbn. lia.
Qed.

Lemma v_nodup : NoDup (map fst v_lb).
Proof. constructor; [intros [H|[]]; discriminate|]. constructor; [intros []|constructor]. Qed.

Lemma v_complete g : (4 <= List.length g)%nat -> exists c f c',
  chaos_init v_breaks None (Some v_ct) (Some v_static) (Some v_sm) (Some g) (Some v_deltas)
    (Some v_lb) (Some v_lc) (Some [("x"%string, [0; 5])]) (Some [("x"%string, v_cal)]) (MetaPre v_pre) = Ok c /\
  save_matfile c (SMeta v_pre (map fst v_lb)) no_file = (f, Ok tt) /\
  load_CHAOS_matfile f (Some (map fst v_lb)) = Ok (c', map fst v_lb, map fst v_lb).
Proof.
  intros HG. destruct (v_init g) as (c & HI). exists c.
  destruct (complete v_breaks None v_ct 15 (fun _ _ d => INR d) v_sm g (v_delta 1) (v_delta 2) (v_delta 3) v_lb v_lc "x"%string [0; 5] v_cal (MetaPre v_pre) v_pre c HI) as (f & c' & H1 & H2);
    try reflexivity; try (cbn; lia); try assumption; [discriminate|exact v_nodup|exact v_angles|exact v_bins|].
  exists f, c'. repeat split; assumption.
Qed.

(** ** Refutations *)

Lemma gsm_lost : exists c f c', ch_gsm c = Some v_gsm_full /\
  save_matfile c (SMeta v_pre (map fst v_lb)) no_file = (f, Ok tt) /\
  load_CHAOS_matfile f (Some (map fst v_lb)) = Ok (c', map fst v_lb, map fst v_lb) /\ ch_gsm c' <> ch_gsm c.
Proof.
  destruct (v_complete v_gsm_full ltac:(cbn; lia)) as (c & f & c' & HI & HW & HR). exists c, f, c'.
  destruct (init_parts _ _ _ _ _ _ _ _ _ _ _ _ _ HI) as (_ & _ & _ & P4 & P5 & P6 & _).
  split; [exact P5|]. split; [exact HW|]. split; [exact HR|].
  destruct (ext_parts _ _ _ _ _ _ _ _ _ _ _ _ _ P4 P5 P6 ltac:(cbn; lia) ltac:(cbn; lia) eq_refl eq_refl eq_refl eq_refl HW HR) as (_ & G & _).
  rewrite G, P5. intros E. injection E. intros. lra.
Qed.

Definition ext_only (ds : delta * delta * delta) : chaos :=
  mkchaos (Some (model_init (Some v_breaks) None (Some v_ct) (Some "internal"%string))) None (Some v_sm) (Some v_gsm) (Some ds) None None.

Lemma ext_only_init ds mt : chaos_init v_breaks None (Some v_ct) None (Some v_sm) (Some v_gsm) (Some ds) None None None None mt = Ok (ext_only ds).
Proof. reflexivity. Qed.

Lemma v_full : exists k, full_base (base_init (Some v_breaks) None (Some v_ct)) v_breaks k /\ c_d k = 8%nat.
Proof. destruct (init_full v_breaks None v_ct) as (k & F & D); try (cbn; lia); [discriminate|]. exists k. split; [exact F|exact D]. Qed.

Lemma single_bin : exists f, save_matfile (ext_only (v_short 1, v_short 2, v_short 3)) SNone no_file = (f, Ok tt) /\
  exists e, load_CHAOS_matfile f None = Err e.
Proof.
  set (c := ext_only _).
  destruct (save_ok c SNone no_file) as (f & HF).
  { intros m Em. injection Em as <-. destruct v_full as (k & F & _). destruct (ppdict_round_trip _ _ _ F) as (pp & H & _). exists pp. exact H. }
  { intros ds Eds. injection Eds as <-. eexists. reflexivity. }
  { discriminate. }
  { discriminate. }
  { discriminate. }
  exists f. split; [exact HF|].
  apply (ext_single c SNone no_file f None v_sm v_gsm (v_short 1) (v_short 2) (v_short 3) eq_refl eq_refl eq_refl); try reflexivity; try (cbn; lia). exact HF.
Qed.

(** an old static field survives in the file *)
Definition tdep_only : chaos := mkchaos (Some (model_init (Some v_breaks) None (Some v_ct) (Some "internal"%string))) None None None None None None.

Lemma stale : exists c1 f1 f2 c', chaos_init v_breaks None (Some v_ct) (Some v_static) None None None None None None None MetaNone = Ok c1 /\
  save_matfile c1 SNone no_file = (f1, Ok tt) /\ save_matfile tdep_only SNone f1 = (f2, Ok tt) /\
  load_CHAOS_matfile f2 None = Ok (c', default_satellites, default_satellites) /\ ch_static tdep_only = None /\ ch_static c' <> None.
Proof.
  destruct (internal_success v_breaks None v_ct (Some v_static) SNone None MetaNone) as (c1 & f1 & c1' & H1 & H2 & H3); try (cbn; lia); [discriminate|].
  destruct v_full as (k & F & _). destruct (ppdict_round_trip _ _ _ F) as (pp & W1 & W2 & W3 & W4 & W5 & a & W6 & W7).
  destruct (save_ok tdep_only SNone f1) as (f2 & HF); try (intros; discriminate).
  { intros m Em. injection Em as <-. exists pp. exact W1. }
  destruct (init_parts _ _ _ _ _ _ _ _ _ _ _ _ _ H1) as (P1 & P2 & _ & _ & _ & P6 & _ & P8 & _).
  destruct (P2 _ eq_refl) as (b0 & PS & _).
  pose proof (save_inv _ _ _ _ H2) as (A1 & A2 & A3 & A4 & A5 & A6). pose proof (save_inv _ _ _ _ HF) as (B1 & B2 & B3 & B4 & B5 & B6).
  rewrite PS in A5. destruct A5 as (g & _ & A5). cbn [ch_static tdep_only] in B5. rewrite A5 in B5.
  cbn [ch_tdep tdep_only] in B1. destruct B1 as (pp' & B11 & B1). change (to_ppdict (base_init (Some v_breaks) None (Some v_ct)) = Ok pp') in B11. rewrite W1 in B11. injection B11 as <-.
  cbn [ch_delta ch_euler ch_cal tdep_only] in B2, B3, B4. rewrite P6 in A2. rewrite (P8 eq_refl) in A3.
  assert (EC : ch_cal c1 = None) by (injection H1 as <-; reflexivity). rewrite EC in A4.
  exists c1, f1, f2. 
  assert (INIT : exists c', chaos_init (a_v (squeeze (pp_breaks pp))) (Some (Z.of_nat (pp_order pp))) (Some (cube (pp_order pp) (pp_pieces pp) (pp_dim pp) (a_v a)))
      (option_map (fun g => cube 1 1 (List.length (a_v g)) (a_v g)) (mf_g f2)) None None None None None None None (file_meta f2) = Ok c' /\ ch_static c' <> None).
  { rewrite W5, B5. unfold chaos_init. cbn [option_map v_breaks bind]. eexists. split; [reflexivity|]. cbn. discriminate. }
  destruct INIT as (c' & INIT & NS). exists c'. split; [exact H1|]. split; [exact H2|]. split; [exact HF|].
  split; [|split; [reflexivity|exact NS]]. change default_satellites with (sat_list None).
  eapply load_ok; [exact B1|exact W6| | | |exact INIT].
  - unfold ext_part. rewrite B2, A2. reflexivity.
  - unfold euler_part. rewrite B3, A3. reflexivity.
  - unfold cal_part. rewrite B4, A4. reflexivity.
Qed.

(** baseline corrections without SM coefficients *)
Definition no_sm : chaos := mkchaos (Some (model_init (Some v_breaks) None (Some v_ct) (Some "internal"%string))) None None None (Some v_deltas) None None.
Lemma half_written : exists f, chaos_init v_breaks None (Some v_ct) None None None (Some v_deltas) None None None None MetaNone = Ok no_sm /\
  save_matfile no_sm SNone no_file = (f, Err TypeError) /\ mf_pp f <> None.
Proof.
  destruct v_full as (k & F & _). destruct (ppdict_round_trip _ _ _ F) as (pp & W1 & _). change (to_ppdict (m_base (model_init (Some v_breaks) None (Some v_ct) (Some "internal"%string))) = Ok pp) in W1.
  exists (set_pp pp no_file). split; [reflexivity|]. split; [|discriminate]. unfold save_matfile. cbn [ch_tdep ch_delta ch_euler ch_cal ch_static ch_sm ch_gsm no_sm].
  rewrite W1. reflexivity.
Qed.

(** ** Names *)
Lemma generic_inj i j : generic_name i = generic_name j -> i = j.
Proof.
  unfold generic_name. intros H.
  assert (A : forall p x y, (p ++ x)%string = (p ++ y)%string -> x = y).
  { intros p x y. induction p as [|ch p IH]; [exact (fun h => h)|]. intros E. injection E as E. apply IH. exact E. }
  apply A in H.
  apply (f_equal NilEmpty.uint_of_string) in H. rewrite !NilEmpty.usu in H. injection H as H. apply Unsigned.to_uint_inj. exact H.
Qed.

Lemma names_nodup n sats : NoDup sats -> (forall k, (List.length sats < k <= n)%nat -> ~ In (generic_name k) sats) -> NoDup (fst (name_satellites n sats)).
Proof.
  intros ND H. unfold name_satellites. destruct (Nat.ltb_spec n (List.length sats)); cbn [fst].
  - rewrite <- (firstn_skipn n sats) in ND. clear -ND. revert ND. generalize (firstn n sats), (skipn n sats). intros l1 l2.
    induction l1 as [|x l1 IH]; intros ND; [constructor|]. cbn [app] in ND. inversion ND as [|? ? N1 N2]; subst. constructor; [|apply IH; exact N2]. intros Hx. apply N1, in_or_app. left. exact Hx.
  - assert (NG : NoDup (map generic_name (seq (List.length sats + 1) (n - List.length sats)))).
    { apply FinFun.Injective_map_NoDup; [exact generic_inj|apply seq_NoDup]. }
    assert (DJ : forall x, In x sats -> ~ In x (map generic_name (seq (List.length sats + 1) (n - List.length sats)))).
    { intros x Hx Hg. apply in_map_iff in Hg as (k & <- & Hk). apply in_seq in Hk. apply (H k); [lia|exact Hx]. }
    clear H. revert ND DJ NG. generalize (map generic_name (seq (List.length sats + 1) (n - List.length sats))). clear. intros l2.
    induction sats as [|x l IH]; intros ND DJ NG; [exact NG|]. cbn [app]. inversion ND as [|? ? N1 N2]; subst. constructor.
    + intros Hx. apply in_app_or in Hx as [Hx|Hx]; [apply N1; exact Hx|]. apply (DJ x (or_introl eq_refl)). exact Hx.
    + apply IH; [exact N2|intros y Hy; apply DJ; right; exact Hy|exact NG].
Qed.

Lemma name_clash : exists sats, NoDup sats /\ ~ NoDup (fst (name_satellites 2 sats)).
Proof.
  exists ["satellite_2"%string]. split; [constructor; [intros []|constructor]|]. change (fst (name_satellites 2 ["satellite_2"%string])) with ["satellite_2"; "satellite_2"]%string.
  intros N. inversion N as [|? ? N1 _]; subst. apply N1. left. reflexivity.
Qed.
