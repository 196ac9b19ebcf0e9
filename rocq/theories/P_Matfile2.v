(** Saving and loading whole models. *)
From Coq Require Import Reals List Arith ZArith String Bool Lia Lra.
From Verif Require Import M_Prelude M_ND Spec_Field Spec_PP M_PP M_Spectrum M_Model M_Chaos M_Matfile Spec_Matfile P_ND P_Chaos P_Chaos4 P_Matfile.
Import ListNotations.
Open Scope R_scope.

Lemma step_inv w s f : step w s = (f, Ok tt) -> exists f1, s = (f1, Ok tt) /\ w f1 = Ok f.
Proof.
  destruct s as [f1 [[]|e]]; unfold step; cbn [fst snd]; [|discriminate]. destruct (w f1) as [f2|] eqn:EW; [|discriminate].
  intros H. injection H as <-. exists f1. split; [reflexivity|exact EW].
Qed.

Lemma stage_inv {A} (o : option A) w s f : match o with None => s | Some x => step (w x) s end = (f, Ok tt) ->
  exists f1, s = (f1, Ok tt) /\ match o with None => f = f1 | Some x => w x f1 = Ok f end.
Proof. destruct o as [x|]; [apply step_inv|]. intros ->. eauto. Qed.

Lemma stage_list_inv {A} (o : option (list A)) w s f : match o with None | Some [] => s | Some x => step (w x) s end = (f, Ok tt) ->
  exists f1, s = (f1, Ok tt) /\ match o with None | Some [] => f = f1 | Some x => w x f1 = Ok f end.
Proof. destruct o as [[|x l]|]; [| apply step_inv |]; intros ->; eauto. Qed.

Lemma stage_meta meta s f : match meta with SNone => s | SMeta pre _ => step (fun f => Ok (set_params pre f)) s end = (f, Ok tt) ->
  exists f1, s = (f1, Ok tt) /\ match meta with SNone => f = f1 | SMeta pre _ => f = set_params pre f1 end.
Proof.
  destruct meta as [|pre sats]; [intros ->; eauto|]. intros H. apply step_inv in H as (f1 & H & W). injection W as <-. eauto.
Qed.

Lemma bind_inv {A B} (x : result A) (g : A -> result B) y : bind x g = Ok y -> exists a, x = Ok a /\ g a = Ok y.
Proof. destruct x as [a|]; [|discriminate]. cbn [bind]. eauto. Qed.

(** What a successful save leaves in the file: written parts are replaced,
    the others are those of the old file. *)
Lemma save_inv c meta f0 f : save_matfile c meta f0 = (f, Ok tt) ->
  match ch_tdep c with None => mf_pp f = mf_pp f0 | Some m => exists pp, to_ppdict (m_base m) = Ok pp /\ mf_pp f = Some pp end /\
  match ch_delta c with None => mf_ext f = mf_ext f0 | Some ds => exists x, save_ext (ch_sm c) (ch_gsm c) ds = Ok x /\ mf_ext f = Some x end /\
  match ch_euler c with None | Some [] => mf_euler f = mf_euler f0 | Some es => exists x, save_euler es meta = Ok x /\ mf_euler f = Some x end /\
  match ch_cal c with None | Some [] => mf_cal f = mf_cal f0 | Some cs => exists x, mapM (fun sm => to_ppdict (snd sm)) cs = Ok x /\ mf_cal f = Some x end /\
  match ch_static c with None => mf_g f = mf_g f0 | Some m => exists k, b_coeffs (m_base m) = Some k /\ mf_g f = Some (column (a_v (flat3 k))) end /\
  match meta with SNone => mf_params f = mf_params f0 | SMeta pre _ => mf_params f = Some pre end.
Proof.
  unfold save_matfile. intros H.
  apply stage_meta in H as (f5 & H & E5).
  apply (stage_inv _ (fun (m : field_model) f => match b_coeffs (m_base m) with None => Err OtherError | Some k => Ok (set_g (column (a_v (flat3 k))) f) end)) in H as (f4 & H & E4).
  apply (stage_list_inv _ (fun cs f => bind (mapM (fun sm => to_ppdict (snd sm)) cs) (fun l => Ok (set_cal l f)))) in H as (f3 & H & E3).
  apply (stage_list_inv _ (fun es f => bind (save_euler es meta) (fun x => Ok (set_euler x f)))) in H as (f2 & H & E2).
  apply (stage_inv _ (fun ds f => bind (save_ext (ch_sm c) (ch_gsm c) ds) (fun x => Ok (set_ext x f)))) in H as (f1 & H & E1).
  apply (stage_inv _ (fun (m : field_model) f => bind (to_ppdict (m_base m)) (fun pp => Ok (set_pp pp f)))) in H as (f' & H & E0). injection H as <-.
  assert (A5 : mf_pp f = mf_pp f5 /\ mf_ext f = mf_ext f5 /\ mf_euler f = mf_euler f5 /\ mf_cal f = mf_cal f5 /\ mf_g f = mf_g f5 /\
    match meta with SNone => mf_params f = mf_params f5 | SMeta pre _ => mf_params f = Some pre end) by (destruct meta; subst f; repeat split).
  assert (A4 : mf_pp f5 = mf_pp f4 /\ mf_ext f5 = mf_ext f4 /\ mf_euler f5 = mf_euler f4 /\ mf_cal f5 = mf_cal f4 /\ mf_params f5 = mf_params f4 /\
    match ch_static c with None => mf_g f5 = mf_g f4 | Some m => exists k, b_coeffs (m_base m) = Some k /\ mf_g f5 = Some (column (a_v (flat3 k))) end).
  { destruct (ch_static c) as [m|]; [|subst f5; repeat split]. destruct (b_coeffs (m_base m)) as [k|]; [|discriminate]. apply Ok_inj in E4. subst f5. repeat split. eauto. }
  assert (A3 : mf_pp f4 = mf_pp f3 /\ mf_ext f4 = mf_ext f3 /\ mf_euler f4 = mf_euler f3 /\ mf_g f4 = mf_g f3 /\ mf_params f4 = mf_params f3 /\
    match ch_cal c with None | Some [] => mf_cal f4 = mf_cal f3 | Some cs => exists x, mapM (fun sm => to_ppdict (snd sm)) cs = Ok x /\ mf_cal f4 = Some x end).
  { destruct (ch_cal c) as [[|q cs]|]; [subst f4; repeat split| |subst f4; repeat split]. apply bind_inv in E3 as (x & X1 & X2). apply Ok_inj in X2. subst f4. repeat split. eauto. }
  assert (A2 : mf_pp f3 = mf_pp f2 /\ mf_ext f3 = mf_ext f2 /\ mf_cal f3 = mf_cal f2 /\ mf_g f3 = mf_g f2 /\ mf_params f3 = mf_params f2 /\
    match ch_euler c with None | Some [] => mf_euler f3 = mf_euler f2 | Some es => exists x, save_euler es meta = Ok x /\ mf_euler f3 = Some x end).
  { destruct (ch_euler c) as [[|q cs]|]; [subst f3; repeat split| |subst f3; repeat split]. apply bind_inv in E2 as (x & X1 & X2). apply Ok_inj in X2. subst f3. repeat split. eauto. }
  assert (A1 : mf_pp f2 = mf_pp f1 /\ mf_euler f2 = mf_euler f1 /\ mf_cal f2 = mf_cal f1 /\ mf_g f2 = mf_g f1 /\ mf_params f2 = mf_params f1 /\
    match ch_delta c with None => mf_ext f2 = mf_ext f1 | Some ds => exists x, save_ext (ch_sm c) (ch_gsm c) ds = Ok x /\ mf_ext f2 = Some x end).
  { destruct (ch_delta c) as [ds|]; [|subst f2; repeat split]. apply bind_inv in E1 as (x & X1 & X2). apply Ok_inj in X2. subst f2. repeat split. eauto. }
  assert (A0 : mf_ext f1 = mf_ext f0 /\ mf_euler f1 = mf_euler f0 /\ mf_cal f1 = mf_cal f0 /\ mf_g f1 = mf_g f0 /\ mf_params f1 = mf_params f0 /\
    match ch_tdep c with None => mf_pp f1 = mf_pp f0 | Some m => exists pp, to_ppdict (m_base m) = Ok pp /\ mf_pp f1 = Some pp end).
  { destruct (ch_tdep c) as [m|]; [|subst f1; repeat split]. apply bind_inv in E0 as (x & X1 & X2). apply Ok_inj in X2. subst f1. repeat split. eauto. }
  clear E0 E1 E2 E3 E4 E5.
  destruct A5 as (a1 & a2 & a3 & a4 & a5 & a6), A4 as (b1 & b2 & b3 & b4 & b5 & b6), A3 as (c1 & c2 & c3' & c4 & c5 & c6),
    A2 as (d1 & d2 & d3 & d4 & d5 & d6), A1 as (e1 & e2 & e3 & e4 & e5 & e6), A0 as (g1 & g2 & g3 & g4 & g5 & g6).
  split; [destruct (ch_tdep c); [rewrite a1, b1, c1, d1, e1; exact g6|congruence]|].
  split; [destruct (ch_delta c); [rewrite a2, b2, c2, d2; exact e6|congruence]|].
  split; [destruct (ch_euler c) as [[|]|]; [congruence|rewrite a3, b3, c3'; exact d6|congruence]|].
  split; [destruct (ch_cal c) as [[|]|]; [congruence|rewrite a4, b4; exact c6|congruence]|].
  split; [destruct (ch_static c); [rewrite a5; exact b6|congruence]|].
  destruct meta; [congruence|exact a6].
Qed.
