(** Linear interpolation of the RC-index table, and the sum over sources. *)
From Coq Require Import Reals List Arith ZArith String Ascii Bool Permutation Sorted Lia Lra.
From Coquelicot Require Import Complex.
From Verif Require Import M_Prelude M_ND Spec_Field Spec_PP Spec_Rotate Spec_Chaos M_Synth M_SynthArr M_PP M_Spectrum M_Model M_Rotate M_Chaos
  P_ND P_Bcast P_Rotate P_PP P_SynthArr P_SynthProps P_Model P_Chaos.
Import ListNotations.
Open Scope R_scope.

(** ** Sorting *)
Lemma insert_perm p l : Permutation (insert_row p l) (p :: l).
Proof.
  induction l as [|q l IH]; cbn [insert_row]; [reflexivity|]. destruct (Rlt_dec _ _); [|reflexivity].
  rewrite IH. apply perm_swap.
Qed.
Lemma sort_perm l : Permutation (sort_rows l) l.
Proof. induction l as [|p l IH]; [reflexivity|]. change (sort_rows (p :: l)) with (insert_row p (sort_rows l)). rewrite insert_perm, IH. reflexivity. Qed.

Definition le_row (p q : R * R) : Prop := fst p <= fst q.
Lemma insert_sorted p l : StronglySorted le_row l -> StronglySorted le_row (insert_row p l).
Proof.
  induction l as [|q l IH]; intros H; cbn [insert_row]; [constructor; constructor|].
  inversion H as [|? ? Hs Hq]; subst. destruct (Rlt_dec (fst q) (fst p)) as [L|L].
  - constructor; [apply IH, Hs|]. apply Forall_forall. intros r Hr. apply (Permutation_in _ (insert_perm p l)) in Hr.
    destruct Hr as [<-|Hr]; [unfold le_row; lra|]. rewrite Forall_forall in Hq. apply Hq, Hr.
  - constructor; [exact H|]. constructor; [unfold le_row; lra|]. apply Forall_forall. intros r Hr.
    rewrite Forall_forall in Hq. specialize (Hq r Hr). unfold le_row in *. lra.
Qed.
Lemma sort_sorted l : StronglySorted le_row (sort_rows l).
Proof. induction l as [|p l IH]; [constructor|]. apply (insert_sorted p _ IH). Qed.

Definition lt_row (p q : R * R) : Prop := fst p < fst q.
Lemma strict_sorted l : StronglySorted le_row l -> NoDup (map fst l) -> StronglySorted lt_row l.
Proof.
  induction l as [|p l IH]; intros H N; [constructor|]. inversion H as [|? ? Hs Hp]; subst. inversion N as [|? ? Np Nl]; subst.
  constructor; [apply IH; assumption|]. rewrite Forall_forall in *. intros q Hq. specialize (Hp q Hq). unfold le_row, lt_row in *.
  destruct (Req_dec (fst p) (fst q)) as [E|]; [|lra]. exfalso. apply Np. rewrite E. apply in_map, Hq.
Qed.

Lemma interpolates_perm l l' t v : Permutation l l' -> interpolates l t v -> interpolates l' t v.
Proof.
  intros P (p & q & Hp & Hq & Ht & Hn & H). exists p, q.
  split; [apply (Permutation_in _ P Hp)|]. split; [apply (Permutation_in _ P Hq)|]. split; [exact Ht|]. split; [|exact H].
  intros r Hr. apply Hn. apply (Permutation_in _ (Permutation_sym P) Hr).
Qed.
Lemma covered_perm l l' t : Permutation l l' -> covered l t -> covered l' t.
Proof.
  intros P (p & q & Hp & Hq & Ht). exists p, q.
  split; [apply (Permutation_in _ P Hp)|]. split; [apply (Permutation_in _ P Hq)|exact Ht].
Qed.

Lemma interp_value l : forall v, StronglySorted lt_row l -> l <> [] -> fst (hd (0, 0) l) <= v <= fst (last l (0, 0)) ->
  interpolates l v (interp_sorted l v).
Proof.
  induction l as [|[x0 y0] l IH]; intros v S N H; [congruence|]. destruct l as [|[x1 y1] l].
  - cbn in H |- *. exists (x0, y0), (x0, y0). cbn. split; [auto|]. split; [auto|]. split; [lra|]. split; [intros r _; lra|]. split; [auto|]. intros L. lra.
  - inversion S as [|? ? S' F]; subst. pose proof (Forall_inv F) as L01. unfold lt_row in L01. cbn [fst] in L01.
    change (interp_sorted ((x0, y0) :: (x1, y1) :: l) v)
      with (if Rlt_dec v x1 then y0 + (y1 - y0) / (x1 - x0) * (v - x0) else interp_sorted ((x1, y1) :: l) v).
    change (fst (last ((x0, y0) :: (x1, y1) :: l) (0, 0))) with (fst (last ((x1, y1) :: l) (0, 0))) in H. cbn [hd fst] in H.
    destruct (Rlt_dec v x1) as [L|L].
    + exists (x0, y0), (x1, y1). cbn [fst snd]. split; [left; reflexivity|]. split; [right; left; reflexivity|]. split; [lra|]. split.
      * inversion S' as [|? ? _ F1]; subst. intros r [<-|[<-|Hr]]; cbn [fst]; try lra.
        rewrite Forall_forall in F1. specialize (F1 r Hr). unfold lt_row in F1. cbn [fst] in F1. lra.
      * split; [intros; lra|]. intros _. field. lra.
    + destruct (IH v S' ltac:(discriminate)) as (p & q & Hp & Hq & Ht & Hn & Hv); [split; [cbn [hd fst]; lra|lra]|].
      exists p, q. split; [right; exact Hp|]. split; [right; exact Hq|]. split; [exact Ht|]. split; [|exact Hv].
      intros r [<-|Hr]; [|apply Hn, Hr]. cbn [fst]. rewrite Forall_forall in F. specialize (F p Hp). unfold lt_row in F. cbn [fst] in F. lra.
Qed.

Lemma hd_le l p : StronglySorted le_row l -> In p l -> fst (hd (0, 0) l) <= fst p.
Proof.
  destruct l as [|q l]; [contradiction|]. intros S. inversion S as [|? ? _ F]; subst. cbn [hd]. intros [->|H]; [lra|].
  rewrite Forall_forall in F. apply (F p H).
Qed.
Lemma le_last l : forall p, StronglySorted le_row l -> In p l -> fst p <= fst (last l (0, 0)).
Proof.
  induction l as [|q l IH]; [contradiction|]. intros p S H. inversion S as [|? ? S' F]; subst.
  destruct l as [|r l]; [destruct H as [->|[]]; cbn; lra|].
  change (last (q :: r :: l) (0, 0)) with (last (r :: l) (0, 0)). destruct H as [->|H]; [|apply IH; assumption].
  pose proof (Forall_inv F) as G. unfold le_row in G. specialize (IH r S' (or_introl eq_refl)). lra.
Qed.
Lemma last_in {A} (l : list A) d : l <> [] -> In (last l d) l.
Proof. induction l as [|a l IH]; [congruence|]. intros _. destruct l; [left; reflexivity|]. right. apply IH. discriminate. Qed.

Lemma bounds_covered l t : l <> [] -> StronglySorted le_row l -> (out_of_bounds l t = false <-> covered l t).
Proof.
  intros N S. unfold out_of_bounds. split.
  - destruct (Rlt_dec t _) as [|A]; [discriminate|]. destruct (Rlt_dec _ t) as [|B]; [discriminate|]. intros _.
    exists (hd (0, 0) l), (last l (0, 0)). split; [destruct l; [congruence|left; reflexivity]|]. split; [apply last_in, N|]. lra.
  - intros (p & q & Hp & Hq & Ht). pose proof (hd_le l p S Hp). pose proof (le_last l q S Hq).
    destruct (Rlt_dec t _); [lra|]. destruct (Rlt_dec _ t); [lra|reflexivity].
Qed.

(** ** The value of the interpolant is determined by the table *)
Lemma distinct_fst rows (p q : R * R) : distinct_times rows -> In p rows -> In q rows -> fst p = fst q -> p = q.
Proof.
  unfold distinct_times. induction rows as [|r rows IH]; [contradiction|]. cbn [map]. intros N Hp Hq E.
  inversion N as [|? ? N1 N2]; subst. destruct Hp as [->|Hp], Hq as [->|Hq]; auto.
  - exfalso. apply N1. rewrite E. apply in_map, Hq.
  - exfalso. apply N1. rewrite <- E. apply in_map, Hp.
Qed.

Lemma interpolates_node rows r t v : distinct_times rows -> In r rows -> fst r = t -> interpolates rows t v -> v = snd r.
Proof.
  intros D Hr E (p & q & Hp & Hq & Ht & Hn & H1 & H2). specialize (Hn r Hr).
  destruct (Req_dec (fst p) (fst q)) as [Epq|Npq].
  - rewrite (H1 Epq). f_equal. apply (distinct_fst rows); auto. lra.
  - specialize (H2 ltac:(lra)). destruct (Req_dec (fst p) t) as [Ep|Np].
    + assert (p = r) by (apply (distinct_fst rows); auto; congruence). subst p. rewrite H2, E. field. lra.
    + assert (Eq : fst q = t) by lra. assert (q = r) by (apply (distinct_fst rows); auto; congruence). subst q. rewrite H2, E. field. lra.
Qed.

Lemma interpolates_unique rows t v v' : distinct_times rows -> interpolates rows t v -> interpolates rows t v' -> v = v'.
Proof.
  intros D I I'. destruct (in_dec Req_EM_T t (map fst rows)) as [Hin|Hout].
  - apply in_map_iff in Hin. destruct Hin as (r & E & Hr).
    rewrite (interpolates_node rows r t v D Hr E I), (interpolates_node rows r t v' D Hr E I'). reflexivity.
  - destruct I as (p & q & Hp & Hq & Ht & Hn & H1 & H2), I' as (p' & q' & Hp' & Hq' & Ht' & Hn' & H1' & H2').
    assert (A : forall r, In r rows -> fst r <> t) by (intros r Hr E; apply Hout; rewrite <- E; apply in_map, Hr).
    pose proof (A p Hp). pose proof (A q Hq). pose proof (A p' Hp'). pose proof (A q' Hq').
    pose proof (Hn p' Hp'). pose proof (Hn q' Hq'). pose proof (Hn' p Hp). pose proof (Hn' q Hq).
    assert (p = p') by (apply (distinct_fst rows); auto; lra). assert (q = q') by (apply (distinct_fst rows); auto; lra). subst.
    rewrite H2, H2' by lra. reflexivity.
Qed.

(** ** The default index *)
Definition rc_rows (s : src) (tab : rctable) : list (R * R) :=
  map (fun row => (fst (fst row), match s with External => snd (fst row) | Internal => snd row end)) tab.

Lemma rc_column_name s : exists col, rc_column (src_name s) = Ok col /\
  forall tab, map (fun row => (fst (fst row), col row)) tab = rc_rows s tab.
Proof. destruct s; cbn; eexists; (split; [reflexivity|]); intros; reflexivity. Qed.

Lemma rc_values_ok E s time tab : e_rc E = Some tab -> distinct_times (rc_rows s tab) -> elems time <> [] ->
  (forall i, valid (sh time) i -> covered (rc_rows s tab) (at_ time i)) ->
  exists rc, rc_values E (src_name s) time = Ok rc /\ sh rc = sh time /\
    forall i, valid (sh time) i -> interpolates (rc_rows s tab) (at_ time i) (at_ rc i).
Proof.
  intros Et D Hne Hc. unfold rc_values. rewrite Et. cbn [load bind]. destruct (rc_column_name s) as (col & -> & Hcol). cbn [bind].
  rewrite Hcol. pose proof (sort_perm (rc_rows s tab)) as P. pose proof (sort_sorted (rc_rows s tab)) as S.
  set (l := sort_rows (rc_rows s tab)) in *.
  assert (N : l <> []).
  { unfold elems in Hne. destruct (indices (sh time)) as [|i0 ?] eqn:EI; [exfalso; apply Hne; reflexivity|].
    assert (V : valid (sh time) i0) by (apply indices_valid; rewrite EI; left; reflexivity).
    destruct (Hc i0 V) as (p & q & Hp & _). apply (Permutation_in _ (Permutation_sym P)) in Hp. intros ->. contradiction. }
  assert (SS : StronglySorted lt_row l).
  { apply strict_sorted; [exact S|]. apply (Permutation_NoDup (Permutation_map fst (Permutation_sym P)) D). }
  assert (B : existsb (out_of_bounds l) (elems time) = false).
  { destruct (existsb _ _) eqn:EB; [|reflexivity]. apply existsb_exists in EB. destruct EB as (t & Ht & HB).
    unfold elems in Ht. apply in_map_iff in Ht. destruct Ht as (i & <- & Hi). apply indices_valid in Hi.
    rewrite (proj2 (bounds_covered l _ N S)) in HB; [discriminate|]. apply (covered_perm (rc_rows s tab)); [symmetry; exact P|]. apply Hc, Hi. }
  exists (mknd (sh time) (fun i => interp_sorted l (at_ time i))). rewrite B. split; [destruct l; [congruence|reflexivity]|].
  split; [reflexivity|]. intros i Hi. cbn [at_]. apply (interpolates_perm l); [exact P|]. apply interp_value; [exact SS|exact N|].
  specialize (Hc i Hi). apply (covered_perm _ l) in Hc; [|symmetry; exact P]. destruct Hc as (p & q & Hp & Hq & Ht).
  pose proof (hd_le l p S Hp). pose proof (le_last l q S Hq). lra.
Qed.

Lemma rc_values_uncovered E s time tab i : e_rc E = Some tab -> valid (sh time) i -> ~ covered (rc_rows s tab) (at_ time i) ->
  rc_values E (src_name s) time = Err ValueError.
Proof.
  intros Et Hi Hn. unfold rc_values. rewrite Et. cbn [load bind]. destruct (rc_column_name s) as (col & -> & Hcol). cbn [bind].
  rewrite Hcol. pose proof (sort_perm (rc_rows s tab)) as P. pose proof (sort_sorted (rc_rows s tab)) as S.
  destruct (sort_rows (rc_rows s tab)) as [|p0 l0]; [reflexivity|]. remember (p0 :: l0) as l eqn:El.
  assert (N : l <> []) by (rewrite El; discriminate).
  replace (existsb (out_of_bounds l) (elems time)) with true; [reflexivity|]. symmetry. apply existsb_exists.
  exists (at_ time i). split; [apply in_map, indices_valid, Hi|].
  destruct (out_of_bounds l (at_ time i)) eqn:EB; [reflexivity|]. exfalso. apply Hn. apply (covered_perm l); [exact P|].
  apply bounds_covered; [exact N|exact S|exact EB].
Qed.
