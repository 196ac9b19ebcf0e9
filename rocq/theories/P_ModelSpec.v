(** The power spectrum of a model. *)
From Coq Require Import Reals List Arith ZArith String Bool Lia Lra.
From Verif Require Import M_Prelude M_ND Spec_Field M_PP M_Spectrum M_Model P_Spectrum Props_Spectrum.
Import ListNotations.
Open Scope R_scope.

Definition values (r : cres) (x : list nat) : list R := map (fun k => match s_at r x k with Some v => v | None => 0 end) (seq 0 (s_dim r)).

Definition plain (a : R) (r : cres) radius source : result (nd R) :=
  power_spectrum a (mknd (s_sh r ++ [s_dim r]) (fun x => match s_at r (removelast x) (last x 0%nat) with Some v => v | None => 0 end))
    (Some radius) None (Some source) None.

Lemma snoc_len (l : list nat) x : List.length (l ++ [x]) = S (List.length l).
Proof. rewrite app_length. cbn. lia. Qed.
Lemma plain_axis a r radius source : plain a r radius source =
  power_spectrum a (mknd (s_sh r ++ [s_dim r]) (fun x => match s_at r (removelast x) (last x 0%nat) with Some v => v | None => 0 end))
    (Some radius) None (Some source) (Some (Z.of_nat (List.length (s_sh r)))).
Proof.
  unfold plain. set (c := mknd _ _). assert (L : List.length (sh c) = S (List.length (s_sh r))) by apply snoc_len.
  rewrite <- (C35_negative_axis_counts_from_the_end a c (Some radius) None (Some source) (List.length (s_sh r))) by (rewrite L; lia).
  rewrite L. replace (Z.of_nat (List.length (s_sh r)) - Z.of_nat (S (List.length (s_sh r))))%Z with (-1)%Z by lia. reflexivity.
Qed.

Lemma plain_shape a r radius source W N : s_dim r = (N * (N + 2))%nat -> plain a r radius source = Ok W -> sh W = (s_sh r ++ [N])%list.
Proof.
  intros D. rewrite plain_axis. unfold power_spectrum. set (k := List.length (s_sh r)). cbn [sh].
  assert (NA : norm_axis (List.length (s_sh r ++ [s_dim r])) (Z.of_nat k) = Ok k).
  { unfold norm_axis. rewrite snoc_len. fold k. destruct (Z.leb_spec (- Z.of_nat (S k)) (Z.of_nat k)); [|lia]. destruct (Z.ltb_spec (Z.of_nat k) (Z.of_nat (S k))); [|lia].
    cbn [andb]. destruct (Z.ltb_spec (Z.of_nat k) 0); [lia|]. rewrite Nat2Z.id. reflexivity. }
  rewrite NA. cbn [bind]. destruct (factor source) as [f|e]; [|discriminate]. cbn [bind].
  assert (E : nth k (s_sh r ++ [s_dim r]) 0%nat = s_dim r) by (unfold k; rewrite app_nth2, Nat.sub_diag by lia; reflexivity).
  rewrite E, D. assert (DG : degree_of_size (N * (N + 2)) = Z.of_nat N).
  { unfold degree_of_size. replace (Z.of_nat (N * (N + 2)) + 1)%Z with ((Z.of_nat N + 1) * (Z.of_nat N + 1))%Z by lia. rewrite Z.sqrt_square; lia. }
  rewrite DG. destruct (Z.ltb_spec (Z.of_nat N) 0); [lia|]. intros HW. apply (f_equal (fun x => match x with Ok w => sh w | Err _ => [] end)) in HW. cbn [sh] in HW.
  rewrite <- HW, Nat2Z.id. unfold set_axis, k. rewrite firstn_app, Nat.sub_diag, firstn_O, app_nil_r, firstn_all, skipn_app, skipn_all2 by lia.
  replace (S (List.length (s_sh r)) - List.length (s_sh r))%nat with 1%nat by lia. reflexivity.
Qed.
Lemma plain_fibre a r radius source W N idx n : s_dim r = (N * (N + 2))%nat -> plain a r radius source = Ok W ->
  List.length idx = List.length (s_sh r) -> (1 <= n <= N)%nat ->
  exists W', power_spectrum a (vec 0 (values r idx)) (Some radius) None (Some source) None = Ok W' /\ at_ W (idx ++ [(n - 1)%nat]) = at_ W' [(n - 1)%nat].
Proof.
  intros D E L Hn. pose proof (plain_shape a r radius source W N D E) as Hs. rewrite plain_axis in E. set (k := List.length (s_sh r)) in *.
  assert (NX : nth k (idx ++ [(n - 1)%nat]) 0%nat = (n - 1)%nat) by (rewrite <- L, app_nth2, Nat.sub_diag by lia; reflexivity).
  set (c := mknd _ _) in E. destruct (C35_other_axes_are_independent a c (Some radius) None (Some source) k W (idx ++ [(n - 1)%nat])) as (_ & W' & EW & A).
  - unfold c. cbn [sh]. rewrite snoc_len. fold k. lia.
  - exact E.
  - unfold c. cbn [sh]. rewrite !snoc_len. rewrite L; reflexivity.
  - rewrite NX, Hs. unfold k. rewrite app_nth2, Nat.sub_diag by lia. cbn. lia.
  - exists W'. rewrite NX in A. split; [|exact A]. rewrite <- EW. f_equal. f_equal. unfold c. cbn [sh at_].
    unfold values. assert (K : nth k (s_sh r ++ [s_dim r]) 0%nat = s_dim r) by (unfold k; rewrite app_nth2, Nat.sub_diag by lia; reflexivity). rewrite K.
    apply map_ext. intros j. rewrite firstn_app, <- L, firstn_all, Nat.sub_diag, firstn_O, app_nil_r, skipn_all2 by (rewrite snoc_len; lia).
    rewrite removelast_last, last_last. reflexivity.
Qed.

Definition gain (source : string) (a radius : R) (n : nat) : R :=
  if (source =? "internal")%string then INR (n + 1) * (a / radius) ^ (2 * n + 4)
  else if (source =? "external")%string then INR n * (radius / a) ^ (2 * n - 2)
  else INR (n * (n + 1)) / INR (2 * n + 1).
Definition known (source : string) : Prop := source = "internal"%string \/ source = "external"%string \/ source = "toroidal"%string.

Lemma values_length r idx : List.length (values r idx) = s_dim r.
Proof. unfold values. rewrite map_length, seq_length. reflexivity. Qed.
Lemma plain_ok a r radius source N : s_dim r = (N * (N + 2))%nat -> known source -> exists W, plain a r radius source = Ok W.
Proof.
  intros D K. rewrite plain_axis. unfold power_spectrum. set (k := List.length (s_sh r)). cbn [sh].
  assert (NA : norm_axis (List.length (s_sh r ++ [s_dim r])) (Z.of_nat k) = Ok k).
  { unfold norm_axis. rewrite snoc_len. fold k. destruct (Z.leb_spec (- Z.of_nat (S k)) (Z.of_nat k)); [|lia]. destruct (Z.ltb_spec (Z.of_nat k) (Z.of_nat (S k))); [|lia].
    cbn [andb]. destruct (Z.ltb_spec (Z.of_nat k) 0); [lia|]. rewrite Nat2Z.id. reflexivity. }
  rewrite NA. cbn [bind]. assert (F : exists f, factor source = Ok f) by (destruct K as [-> |[-> | ->]]; eexists; reflexivity).
  destruct F as [f ->]. cbn [bind].
  assert (E : nth k (s_sh r ++ [s_dim r]) 0%nat = s_dim r) by (unfold k; rewrite app_nth2, Nat.sub_diag by lia; reflexivity).
  rewrite E, D. assert (DG : degree_of_size (N * (N + 2)) = Z.of_nat N).
  { unfold degree_of_size. replace (Z.of_nat (N * (N + 2)) + 1)%Z with ((Z.of_nat N + 1) * (Z.of_nat N + 1))%Z by lia. rewrite Z.sqrt_square; lia. }
  rewrite DG. destruct (Z.ltb_spec (Z.of_nat N) 0); [lia|]. eexists. reflexivity.
Qed.

Theorem spectrum_of_model a m time radius nmax deriv e r N :
  0 < a -> 0 < match radius with None => a | Some x => x end -> model_coeffs m time nmax deriv e = Ok r -> s_dim r = (N * (N + 2))%nat -> known (m_source m) ->
  exists S, model_spectrum a m time radius nmax deriv e = Ok S /\ sh S = (s_sh r ++ [N])%list /\
    forall idx n, List.length idx = List.length (s_sh r) -> (1 <= n <= N)%nat ->
      (forall l, List.length l = s_dim r -> (forall k, (k < s_dim r)%nat -> s_at r idx k = Some (nth k l 0)) ->
         at_ S (idx ++ [(n - 1)%nat]) = Some (gain (m_source m) a (match radius with None => a | Some x => x end) n * degree_power l n)) /\
      (forall k, (n ^ 2 - 1 <= k < (n + 1) ^ 2 - 1)%nat -> s_at r idx k = None -> at_ S (idx ++ [(n - 1)%nat]) = None).
Proof.
  intros Ha Hr E D K. unfold model_spectrum. rewrite E. cbn [bind]. set (rad := match radius with None => a | Some x => x end) in *.
  destruct (plain_ok a r rad (m_source m) N D K) as [W EW]. unfold nan_spectrum. unfold plain in EW. rewrite EW. cbn [bind]. fold (plain a r rad (m_source m)) in EW.
  eexists. split; [reflexivity|]. cbn [sh at_]. split; [apply (plain_shape a r rad (m_source m) W N D EW)|].
  intros idx n L Hn. rewrite removelast_last, last_last. replace (n - 1 + 1)%nat with n by lia. split.
  - intros l Ll Hl.
    assert (X : existsb is_nan (map (s_at r idx) (seq (n ^ 2 - 1) (2 * n + 1))) = false).
    { apply not_true_is_false. intros X. apply existsb_exists in X. destruct X as (v & I & V). apply in_map_iff in I. destruct I as (k & <- & I). apply in_seq in I.
      rewrite Hl in V; [discriminate|]. rewrite D. cbn [Nat.pow] in I. nia. }
    rewrite X. f_equal. destruct (plain_fibre a r rad (m_source m) W N idx n D EW L Hn) as (W' & EW' & ->).
    assert (EL : values r idx = l).
    { apply nth_ext with 0 0; [rewrite values_length; auto|]. intros k Hk. rewrite values_length in Hk. unfold values.
      rewrite (nth_indep _ 0 (match s_at r idx 0 with Some v => v | None => 0 end)) by (rewrite map_length, seq_length; exact Hk).
      rewrite (map_nth (fun k => match s_at r idx k with Some v => v | None => 0 end)), seq_nth by exact Hk. cbn [Nat.add]. rewrite (Hl k Hk). reflexivity. }
    rewrite EL in EW'. unfold gain. destruct K as [K|[K|K]]; rewrite K in *; cbn [String.eqb Ascii.eqb Bool.eqb].
    + destruct (C35_internal_spectrum a l rad None W' N Ha Hr ltac:(congruence) EW') as (K' & _ & EK & H). apply H. lia.
    + destruct (C35_external_spectrum a l rad None W' N Ha Hr ltac:(congruence) EW') as (K' & _ & EK & H). apply H. lia.
    + destruct (C35_toroidal_spectrum a l rad None W' N Ha Hr ltac:(congruence) EW') as (K' & _ & EK & H). apply H. lia.
  - intros k Hk Hv. assert (X : existsb is_nan (map (s_at r idx) (seq (n ^ 2 - 1) (2 * n + 1))) = true); [|rewrite X; reflexivity].
    apply existsb_exists. exists None. split; [|reflexivity]. apply in_map_iff. exists k. split; [exact Hv|]. apply in_seq. cbn [Nat.pow] in *. nia.
Qed.
