(** Static field, Euler angles, dipole check, prefixes. *)
From Coq Require Import Reals List Arith ZArith String Ascii Bool Lia Lra.
From Coquelicot Require Import Coquelicot.
From Verif Require Import M_Prelude M_ND Spec_Field Spec_PP Spec_Rotate Spec_Chaos M_Synth M_SynthArr M_PP M_Spectrum M_Model M_Rotate M_Chaos
  P_ND P_Bcast P_Rotate P_PP P_PP2 P_SynthArr P_SynthProps P_Layout P_Design P_SynthProps2 P_Model P_SHC2 P_Chaos P_Chaos2 P_Chaos3.
Import ListNotations.
Open Scope R_scope.

(** ** Construction *)
Lemma init_parts breaks order tdep static sm gsm dl be ce bc cc meta c :
  chaos_init breaks order tdep static sm gsm dl be ce bc cc meta = Ok c ->
  ch_tdep c = option_map (fun k => model_init (Some breaks) order (Some k) (Some "internal"%string)) tdep /\
  (forall k, static = Some k -> exists b, ch_static c = Some (model_init (Some [nth 0 breaks 0; last breaks b]) (Some 1%Z) (Some k) (Some "internal"%string)) /\ breaks <> []) /\
  (static = None -> ch_static c = None) /\
  ch_sm c = sm /\ ch_gsm c = gsm /\ ch_delta c = dl /\
  (forall l, be = Some l -> exists es, ch_euler c = Some es /\ mapM (euler_entry ce meta) (combine (seq 0 (List.length l)) l) = Ok es) /\
  (be = None -> ch_euler c = None) /\
  (forall l, bc = Some l -> exists es, ch_cal c = Some es /\ mapM (cal_entry cc) l = Ok es).
Proof.
  unfold chaos_init. intros H.
  match type of H with bind ?u _ = _ => destruct u as [ms|] eqn:E1; [|discriminate] end. cbn [bind] in H.
  match type of H with bind ?u _ = _ => destruct u as [me|] eqn:E2; [|discriminate] end. cbn [bind] in H.
  match type of H with bind ?u _ = _ => destruct u as [mc|] eqn:E3; [|discriminate] end. cbn [bind] in H. injection H as <-. cbn.
  split; [reflexivity|]. split.
  { intros k ->. destruct breaks as [|b br]; [discriminate|]. exists b. injection E1 as <-. split; [reflexivity|discriminate]. }
  split; [intros ->; injection E1 as <-; reflexivity|]. do 3 (split; [reflexivity|]). split; [|split].
  - intros l ->. destruct (mapM _ _) as [es|]; [|discriminate]. cbn in E2. injection E2 as <-. eauto.
  - intros ->. injection E2 as <-. reflexivity.
  - intros l ->. destruct (mapM _ _) as [es|]; [|discriminate]. cbn in E3. injection E3 as <-. eauto.
Qed.

Lemma last_default {A} (l : list A) d d' : l <> [] -> last l d = last l d'.
Proof. induction l as [|a l IH]; [congruence|]. intros _. destruct l; [reflexivity|]. apply IH. discriminate. Qed.

(** ** Static field *)
Lemma static_model_eq b e D v s :
  model_init (Some [b; e]) (Some 1%Z) (Some (mkc3 1 1 D v)) (Some s) = model_init (Some [b; e]) None (Some (mkc3 1 (List.length [b; e] - 1) D v)) (Some s).
Proof. reflexivity. Qed.

Lemma two_breaks b e : b < e -> good_breaks [b; e].
Proof. intros H. split; [cbn; lia|]. intros i Hi. cbn in Hi. replace i with 0%nat by lia. cbn. exact H. Qed.

Lemma piece_one x c i d t : piece x 1 c i d t = c 0%nat i d.
Proof. unfold piece. cbn. ring. Qed.

Lemma static_field_value E c b e D v radius theta phi nmax e0 F idx N :
  ch_static c = Some (model_init (Some [b; e]) (Some 1%Z) (Some (mkc3 1 1 D v)) (Some "internal"%string)) -> b < e ->
  synth_values_static E c radius theta phi nmax None None e0 = Ok F ->
  (forall t, In t (elems theta) -> 0 <= t <= 180) -> used_degree D nmax N -> valid (o_sh F) idx ->
  exists G, synth_values (e_oob E) (e_rsurf E) (cvec (map (fun d => v 0%nat 0%nat d) (seq 0 (N * (N + 2)))))
      (scalar (bread radius idx)) (scalar (bread theta idx)) (scalar (bread phi idx))
      (Some 1%Z) (Some (Z.of_nat N)) (Some (Z.of_nat N)) (Some "internal"%string) false = Ok G /\
    o_r F idx = Some (f_r G []) /\ o_t F idx = Some (f_t G []) /\ o_p F idx = Some (f_p G []).
Proof.
  intros Hs Hbe HF Ht HU Hi. unfold synth_values_static in HF. rewrite Hs in HF.
  assert (Et : static_time (model_init (Some [b; e]) (Some 1%Z) (Some (mkc3 1 1 D v)) (Some "internal"%string)) = b) by reflexivity.
  rewrite Et, static_model_eq in HF. change (Some "internal"%string) with (Some (src_name Internal)) in HF.
  assert (II : in_interval [b; e] 0 b) by (split; [cbn; lia|]; cbn; split; [lra|left; lra]).
  destruct (model_field (e_oob E) (e_rsurf E) Internal [b; e] 1 D v (two_breaks _ _ Hbe) ltac:(lia) (scalar b) radius theta phi nmax None e0 F idx 0 N HF Ht HU Hi)
    as (vr & vt & vp & A1 & A2 & A3 & A4 & A5 & A6).
  - rewrite bread_scalar. exact II.
  - left. reflexivity.
  - cbn [nu_of is_derive_n] in A2, A4, A6. unfold piece_field in A2, A4, A6.
    assert (EL : forall day, map (fun d => piece [b; e] 1 v 0 d day) (seq 0 (N * (N + 2))) = map (fun d => v 0%nat 0%nat d) (seq 0 (N * (N + 2)))).
    { intros day. apply map_ext. intros d. apply piece_one. }
    rewrite !EL in A2, A4, A6. cbn [src_name] in *.
    destruct (model_values_decode (e_oob E) (e_rsurf E) Internal [b; e] 1 D v (two_breaks _ _ Hbe) ltac:(lia) _ _ _ _ _ _ _ _ _ HF) as (N' & r & F0 & U' & LD & N1 & _).
    assert (N' = N) by (eapply used_unique; eassumption). subst N'.
    assert (Hth : 0 <= bread theta idx <= 180).
    { apply Ht. apply (bread_in theta (o_sh F)); [|exact Hi]. apply model_values_shape in HF. apply broadcast_fits in HF.
      inversion HF as [|? ? _ HF']; subst. inversion HF'; assumption. }
    set (L := map (fun d => v 0%nat 0%nat d) (seq 0 (N * (N + 2)))) in *.
    destruct (synth_values (e_oob E) (e_rsurf E) (cvec L) (scalar (bread radius idx)) (scalar (bread theta idx)) (scalar (bread phi idx))
      (Some 1%Z) (Some (Z.of_nat N)) (Some (Z.of_nat N)) (Some "internal"%string) false) as [G|er] eqn:EG.
    + exists G. split; [reflexivity|]. rewrite A1, A3, A5, <- A2, <- A4, <- A6. auto.
    + exfalso. change "internal"%string with (src_name Internal) in EG.
      destruct (sv_success (e_oob E) (e_rsurf E) (cvec L) (scalar (bread radius idx)) (scalar (bread theta idx)) (scalar (bread phi idx)) 1 N N Internal []) as (G & EG' & _); 
        [lia|discriminate|intros t [<-|[]]; exact Hth|reflexivity| |change (Z.of_nat 1) with 1%Z in EG'; congruence].
      rewrite count_full by lia. unfold cvec. cbn [cdim]. unfold L. rewrite map_length, seq_length. lia.
Qed.

(** ** Euler angles *)
Lemma lookup_in {A} k (l : list (string * A)) v : lookup k l = Some v -> In (k, v) l.
Proof.
  induction l as [|[k' v'] l IH]; [discriminate|]. cbn [lookup]. destruct (String.eqb_spec k k') as [->|]; [intros H; injection H as ->; left; reflexivity|].
  intros H. right. apply IH, H.
Qed.
Lemma lookup_nodup {A} k (l : list (string * A)) v : NoDup (map fst l) -> In (k, v) l -> lookup k l = Some v.
Proof.
  induction l as [|[k' v'] l IH]; [contradiction|]. cbn [map fst lookup]. intros N. inversion N as [|? ? N1 N2]; subst. intros [H|H].
  - injection H as -> ->. rewrite String.eqb_refl. reflexivity.
  - destruct (String.eqb_spec k k') as [->|]; [|apply IH; assumption]. exfalso. apply N1. apply (in_map fst _ _ H).
Qed.
Lemma lookup_none {A} k (l : list (string * A)) : lookup k l = None <-> ~ In k (map fst l).
Proof.
  induction l as [|[k' v'] l IH]; cbn [lookup map fst]; [tauto|]. destruct (String.eqb_spec k k') as [->|N].
  - split; [discriminate|]. intros H. exfalso. apply H. left. reflexivity.
  - rewrite IH. split; [intros H [->|H']; [congruence|auto]|intros H H'; apply H; right; exact H'].
Qed.

Lemma euler_keys ce meta l : forall k0 es, mapM (euler_entry ce meta) (combine (seq k0 (List.length l)) l) = Ok es ->
  map fst es = map fst l /\
  forall sat br, In (sat, br) l -> exists cs C pre, ce = Some cs /\ lookup sat cs = Some C /\
    In (sat, mkeuler (base_init (Some br) (Some 1%Z) (Some C)) pre) es.
Proof.
  induction l as [|[sat br] l IH]; intros k0 es H.
  - cbn in H. injection H as <-. split; [reflexivity|contradiction].
  - cbn [List.length seq combine mapM] in H. unfold euler_entry at 1 in H.
    destruct (prerotation meta k0) as [pre|]; [|discriminate]. cbn [bind] in H. destruct ce as [cs|]; [|discriminate].
    destruct (lookup sat cs) as [C|] eqn:EC; [|discriminate]. cbn [bind] in H.
    destruct (mapM _ _) as [es'|] eqn:EM; [|discriminate]. cbn [bind] in H. injection H as <-.
    destruct (IH _ _ EM) as [K1 K2]. split; [cbn; f_equal; exact K1|].
    intros s b [Hb|Hb].
    + injection Hb as -> ->. exists cs, C, pre. split; [reflexivity|]. split; [exact EC|left; reflexivity].
    + destruct (K2 s b Hb) as (cs' & C' & pre' & A & B & D). exists cs', C', pre'. split; [exact A|]. split; [exact B|right; exact D].
Qed.

Lemma euler_angles breaks order tdep static sm gsm dl l ce bc cc meta c sat br C time dim deriv e :
  chaos_init breaks order tdep static sm gsm dl (Some l) (Some ce) bc cc meta = Ok c -> NoDup (map fst l) ->
  In (sat, br) l -> lookup sat ce = Some C ->
  synth_euler_angles c time sat dim deriv e = synth_coeffs (base_init (Some br) (Some 1%Z) (Some C)) time dim deriv e.
Proof.
  intros H N Hin HC. destruct (init_parts _ _ _ _ _ _ _ _ _ _ _ _ _ H) as (_ & _ & _ & _ & _ & _ & HE & _).
  destruct (HE l eq_refl) as (es & E1 & E2). destruct (euler_keys _ _ _ _ _ E2) as [K1 K2].
  destruct (K2 sat br Hin) as (cs & C' & pre & A & B & D). injection A as <-. rewrite HC in B. injection B as <-.
  unfold synth_euler_angles. rewrite E1. rewrite (lookup_nodup _ _ _ ltac:(rewrite K1; exact N) D). reflexivity.
Qed.

Lemma euler_unknown breaks order tdep static sm gsm dl l ce bc cc meta c sat time dim deriv e :
  chaos_init breaks order tdep static sm gsm dl (Some l) ce bc cc meta = Ok c -> ~ In sat (map fst l) ->
  synth_euler_angles c time sat dim deriv e = Err ValueError.
Proof.
  intros H N. destruct (init_parts _ _ _ _ _ _ _ _ _ _ _ _ _ H) as (_ & _ & _ & _ & _ & _ & HE & _).
  destruct (HE l eq_refl) as (es & E1 & E2). destruct (euler_keys _ _ _ _ _ E2) as [K1 _].
  unfold synth_euler_angles. rewrite E1. rewrite (proj2 (lookup_none sat es)); [reflexivity|]. rewrite K1. exact N.
Qed.

(** ** Dipole check *)
Lemma gsm_dipole E c f time nmax s : e_gsm E = Some f -> rf_dipole f <> e_dipole E -> is_err (synth_coeffs_gsm E c time nmax s).
Proof.
  intros He Hd. unfold synth_coeffs_gsm. destruct (ch_gsm c); [|eexists; reflexivity]. destruct (ch_static c); [|eexists; reflexivity].
  destruct (amin _); [|eexists; reflexivity]. cbn [bind]. rewrite He. cbn [load bind]. rewrite (lists_equal_ne _ _ Hd). eexists; reflexivity.
Qed.
Lemma sm_dipole E c f time nmax s rc : e_sm E = Some f -> rf_dipole f <> e_dipole E -> is_err (synth_coeffs_sm E c time nmax s rc).
Proof.
  intros He Hd. unfold synth_coeffs_sm. destruct (ch_sm c); [|eexists; reflexivity]. destruct (ch_delta c); [|eexists; reflexivity].
  destruct (existsb _ _); [eexists; reflexivity|].
  destruct (amin _); [|eexists; reflexivity]. cbn [bind]. rewrite He. cbn [load bind]. rewrite (lists_equal_ne _ _ Hd). eexists; reflexivity.
Qed.
Lemma bind_err {A B} (x : result A) (f : A -> result B) : is_err x -> is_err (bind x f).
Proof. intros [e ->]. exists e. reflexivity. Qed.
Lemma gsm_values_dipole E c f time radius theta phi nmax s g : e_gsm E = Some f -> rf_dipole f <> e_dipole E ->
  is_err (synth_values_gsm E c time radius theta phi nmax s g).
Proof.
  intros He Hd. unfold synth_values_gsm. destruct (_ =? _)%string; [apply bind_err, (gsm_dipole _ _ _ _ _ _ He Hd)|].
  destruct (_ || _)%bool; [apply bind_err, (gsm_dipole _ _ _ _ _ _ He Hd)|eexists; reflexivity].
Qed.
Lemma sm_values_dipole E c f time radius theta phi re ri nmax s g : e_sm E = Some f -> rf_dipole f <> e_dipole E ->
  is_err (synth_values_sm E c time radius theta phi re ri nmax s g).
Proof.
  intros He Hd. unfold synth_values_sm. destruct (_ =? _)%string; [apply bind_err, (sm_dipole _ _ _ _ _ _ _ He Hd)|].
  destruct (_ || _)%bool; [apply bind_err, (sm_dipole _ _ _ _ _ _ _ He Hd)|eexists; reflexivity].
Qed.

(** ** Smaller degrees are prefixes *)
Lemma Ok_inj {A} (a b : A) : Ok a = Ok b -> a = b. Proof. congruence. Qed.
Lemma clip_some n N : clip_nmax (Some n) N = Nat.min n N. Proof. apply clip_min. Qed.
Lemma take_prefix n N k : (cdim (take_coeffs (Nat.min n N * (Nat.min n N + 2)) k) = Nat.min (n * (n + 2)) (cdim (take_coeffs (N * (N + 2)) k)))%nat.
Proof. cbn [take_coeffs cdim]. destruct (Nat.le_gt_cases n N) as [L|L]; [rewrite (Nat.min_l n N L)|rewrite (Nat.min_r n N) by lia]; nia. Qed.

Lemma gsm_prefix E c time n s K K' : synth_coeffs_gsm E c time None s = Ok K -> synth_coeffs_gsm E c time (Some n) s = Ok K' ->
  csh K' = csh K /\ (cdim K' = Nat.min (n * (n + 2)) (cdim K))%nat /\ cat K' = cat K.
Proof.
  unfold synth_coeffs_gsm. destruct (ch_gsm c) as [g|]; [|discriminate]. destruct (ch_static c); [|discriminate].
  destruct (amin _); [|discriminate]. cbn [bind]. destruct (load _); [|discriminate]. cbn [bind]. destruct (negb _); [discriminate|].
  match goal with |- bind ?u _ = _ -> _ => destruct u as [k|]; [|discriminate] end. cbn [bind].
  intros H1 H2. apply Ok_inj in H1, H2. subst K K'. rewrite clip_some. unfold clip_nmax. split; [reflexivity|]. split; [apply take_prefix|reflexivity].
Qed.
Lemma sm_prefix E c time n s rc K K' : synth_coeffs_sm E c time None s rc = Ok K -> synth_coeffs_sm E c time (Some n) s rc = Ok K' ->
  csh K' = csh K /\ (cdim K' = Nat.min (n * (n + 2)) (cdim K))%nat /\ cat K' = cat K.
Proof.
  unfold synth_coeffs_sm. destruct (ch_sm c) as [g|]; [|discriminate]. destruct (ch_delta c); [|discriminate]. destruct (existsb _ _); [discriminate|].
  destruct (amin _); [|discriminate]. cbn [bind]. destruct (load _); [|discriminate]. cbn [bind]. destruct (negb _); [discriminate|].
  match goal with |- bind ?u _ = _ -> _ => destruct u as [r|]; [|discriminate] end. cbn [bind].
  match goal with |- bind ?u _ = _ -> _ => destruct u as [M|]; [|discriminate] end. cbn [bind].
  match goal with |- bind ?u _ = _ -> _ => destruct u as [k|]; [|discriminate] end. cbn [bind].
  intros H1 H2. apply Ok_inj in H1, H2. subst K K'. rewrite clip_some. unfold clip_nmax. split; [reflexivity|]. split; [apply take_prefix|reflexivity].
Qed.
