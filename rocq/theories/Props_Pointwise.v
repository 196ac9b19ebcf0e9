(** C142: evaluating a model on arrays is evaluating it element by element. *)
From Coq Require Import Reals List Arith ZArith String Bool Lia Lra.
From Verif Require Import M_Prelude M_ND Spec_Field Spec_PP Spec_Chaos M_SynthArr M_PP M_Model M_Rotate M_Chaos
  P_ND P_Chaos P_Chaos6 P_Pointwise W_Chaos P_Bcast.
Import ListNotations.
Open Scope R_scope.

(** Each element of a call of a complete model on arrays, with the RC-index
    given (broadcast to the times) or taken from its file, is the result of
    the call with the numbers at that element. *)
Theorem C142_each_element_is_a_scalar_call : forall E breaks K D ct Ds cs sm gsm q10 q11 s11 be ce bc cc meta c fs fg k ki k' ki' N N'
    time radius theta phi rc_e rc_i nmax_static sources B i,
  chaos_init breaks None (Some (mkc3 K (List.length breaks - 1) D ct)) (Some (mkc3 1 1 Ds cs)) (Some sm) (Some gsm)
    (Some (q10, q11, s11)) be ce bc cc meta = Ok c ->
  good_breaks breaks -> (1 <= K)%nat -> (3 <= D)%nat -> (3 <= Ds)%nat -> nmax_static <> Some 0%nat ->
  good_breaks (d_breaks q10) -> good_breaks (d_breaks q11) -> good_breaks (d_breaks s11) ->
  e_sm E = Some fs -> rf_dipole fs = e_dipole E -> (1 <= N)%nat -> (List.length sm = N * (N + 2))%nat -> rot_file fs k ki (N * (N + 2)) (N * (N + 2)) ->
  e_gsm E = Some fg -> rf_dipole fg = e_dipole E -> (1 <= N')%nat -> (List.length gsm = N' * (N' + 2))%nat -> rot_file fg k' ki' (N' * (N' + 2)) (N' * (N' + 2)) ->
  (forall r, rc_e = Some r -> bfits (sh r) (sh time)) -> (forall r, rc_i = Some r -> bfits (sh r) (sh time)) ->
  (forall t, In t (elems theta) -> 0 <= t <= 180) ->
  call E c time radius theta phi rc_e rc_i sources nmax_static = Ok B -> valid (o_sh B) i ->
  exists S, call E c (scalar (bread time i)) (scalar (bread radius i)) (scalar (bread theta i)) (scalar (bread phi i))
      (option_map (fun r => scalar (bread r i)) rc_e) (option_map (fun r => scalar (bread r i)) rc_i) sources nmax_static = Ok S /\ o_sh S = [] /\
    o_r S [] = o_r B i /\ o_t S [] = o_t B i /\ o_p S [] = o_p B i.
Proof. exact call_pointwise_rc. Qed.

Theorem C142_shape_of_a_call : forall E c time radius theta phi rc_e rc_i sources nmax_static B,
  call E c time radius theta phi rc_e rc_i sources nmax_static = Ok B -> broadcast [sh time; sh radius; sh theta; sh phi] = Ok (o_sh B).
Proof. exact call_shape. Qed.

(** The same for the values of a single model, with any extrapolation. *)
Theorem C142_each_element_of_a_model : forall oob a s x K D c time radius theta phi nmax e F F1 i,
  good_breaks x -> (1 <= K)%nat ->
  let m := model_init (Some x) None (Some (mkc3 K (List.length x - 1) D c)) (Some (src_name s)) in
  model_values oob a m time radius theta phi nmax None None e = Ok F ->
  model_values oob a m (scalar (bread time i)) (scalar (bread radius i)) (scalar (bread theta i)) (scalar (bread phi i)) nmax None None e = Ok F1 ->
  (forall t, In t (elems theta) -> 0 <= t <= 180) -> valid (o_sh F) i ->
  o_sh F1 = [] /\ o_r F1 [] = o_r F i /\ o_t F1 [] = o_t F i /\ o_p F1 [] = o_p F i.
Proof. intros oob a s x K D c time radius theta phi nmax e F F1 i G HK m. exact (model_same oob a s x K D c G HK time radius theta phi nmax e F F1 i). Qed.

(** Two epochs at one time: the second element of the call on arrays. *)
Example C142_example : exists B S, call w_env w_chaos w_time w_radius w_theta w_phi (Some w_rc) None SrcNone None = Ok B /\
  call w_env w_chaos (scalar (3/2)) (scalar (bread w_radius [1%nat])) (scalar (bread w_theta [1%nat])) (scalar (bread w_phi [1%nat]))
    (Some (scalar 7)) None SrcNone None = Ok S /\ o_r S [] = o_r B [1%nat].
Proof.
  assert (X : exists ri, given w_env "internal" w_time None ri /\ sh ri = sh w_time).
  { destruct w_rc_ok as (tab & T & H). destruct (P_Chaos2.rc_values_ok w_env Internal w_time tab T (proj1 (H Internal)) ltac:(discriminate) (proj1 (proj2 (H Internal)))) as (ri & A & B & _).
    exists ri. split; [exact A|exact B]. }
  destruct X as (ri & Gi & SI).
  assert (Y : exists B, call w_env w_chaos w_time w_radius w_theta w_phi (Some w_rc) (Some ri) SrcNone None = Ok B /\ o_sh B = [2]%nat).
  { apply (call_complete w_env [0; 1; 3] 2 8 (fun r i d => INR (r + i + d)) 15 (fun _ _ d => INR d) [10; 20; 30] [3; 2; 1] (w_delta 0) (w_delta 1) (w_delta 2)
      None None None None MetaNone w_chaos w_file w_file 2 1 2 1 1 1);
      first [exact w_chaos_init | apply w_good3; lra | exact w_rot | exact w_fits | reflexivity | discriminate | lia | idtac].
    - rewrite SI. apply bfits_refl.
    - intros t Ht. cbn in Ht. destruct Ht as [<-|[<-|[]]]; lra. }
  destruct Y as (B & EB & SB). rewrite <- (given_call w_env w_chaos w_time w_radius w_theta w_phi (Some w_rc) None w_rc ri SrcNone None eq_refl Gi) in EB.
  exists B.
  destruct (C142_each_element_is_a_scalar_call w_env [0; 1; 3] 2 8 (fun r i d => INR (r + i + d)) 15 (fun _ _ d => INR d) [10; 20; 30] [3; 2; 1] (w_delta 0) (w_delta 1) (w_delta 2)
    None None None None MetaNone w_chaos w_file w_file 2 1 2 1 1 1 w_time w_radius w_theta w_phi (Some w_rc) None None SrcNone B [1%nat]) as (S & ES & _ & R1 & _);
    first [exact w_chaos_init | apply w_good3; lra | exact w_rot | reflexivity | discriminate | lia | exact EB | idtac].
  - intros r Hr. injection Hr as <-. exact w_fits.
  - intros t Ht. cbn in Ht. destruct Ht as [<-|[<-|[]]]; lra.
  - rewrite SB. constructor; [lia|constructor].
  - exists S. split; [exact EB|]. split; [|exact R1]. rewrite <- ES. reflexivity.
Qed.

Print Assumptions C142_each_element_is_a_scalar_call.
Print Assumptions C142_shape_of_a_call.
Print Assumptions C142_each_element_of_a_model.
