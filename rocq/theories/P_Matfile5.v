(** MAT-files: Euler angles. *)
From Coq Require Import Reals List Arith ZArith String Bool Lia Lra.
From Verif Require Import M_Prelude M_ND Spec_Field Spec_PP M_PP M_Spectrum M_Model M_Chaos M_Matfile Spec_Matfile P_ND P_SHC2 P_SHCModel P_Chaos P_Chaos4 P_Matfile P_Matfile2 P_Matfile3 P_Matfile4.
Import ListNotations.
Open Scope R_scope.

(** dictionaries with distinct keys keep their items *)
Lemma dict_set_new {A} k (v : A) d : ~ In k (map fst d) -> dict_set k v d = d ++ [(k, v)].
Proof.
  induction d as [|[k' v'] d IH]; intros H; [reflexivity|]. cbn [dict_set]. destruct (String.eqb_spec k k') as [->|N].
  - exfalso. apply H. left. reflexivity.
  - cbn [app]. f_equal. apply IH. intros H'. apply H. right. exact H'.
Qed.
Lemma make_dict_acc {A} (l : list (string * A)) : forall d, NoDup (map fst d ++ map fst l) ->
  fold_left (fun d kv => dict_set (fst kv) (snd kv) d) l d = d ++ l.
Proof.
  induction l as [|[k v] l IH]; intros d N; cbn [fold_left]; [rewrite app_nil_r; reflexivity|]. cbn [fst snd map] in *.
  rewrite dict_set_new.
  - rewrite IH; [rewrite <- app_assoc; reflexivity|]. rewrite map_app. cbn [map fst]. rewrite <- app_assoc. exact N.
  - intros H. apply NoDup_remove_2 in N. apply N, in_or_app. left. exact H.
Qed.
Lemma make_dict_nodup {A} (l : list (string * A)) : NoDup (map fst l) -> make_dict l = l.
Proof. intros N. apply (make_dict_acc l []). exact N. Qed.

Lemma map_fst_combine {A B} (l : list A) (m : list B) : List.length l = List.length m -> map fst (combine l m) = l.
Proof. revert m. induction l as [|x l IH]; intros [|y m] H; cbn in *; try lia; [reflexivity|]. f_equal. apply IH. lia. Qed.

Lemma in_combine_nth {A B} (l : list A) (m : list B) i da db : (i < List.length l)%nat -> List.length l = List.length m ->
  In (nth i l da, nth i m db) (combine l m).
Proof.
  revert m i. induction l as [|x l IH]; intros [|y m] i Hi HL; cbn in *; try lia. destruct i as [|i]; [left; reflexivity|].
  right. apply IH; lia.
Qed.

(** Angles of one satellite: one order, three angles; the only breaks with
    equal ends are a doubled single break. *)
Record angles_ok (e : euler) (x : list R) (k : c3) : Prop := mkang {
  an_full : full_base (eu_base e) x k; an_k : c_k k = 1%nat; an_d : c_d k = 3%nat;
  an_ends : hd 0 x = last x 0 -> List.length x = 2%nat }.

Definition saved_breaks (x : list R) : list R := if Req_EM_T (hd 0 x) (last x 0) then [hd 0 x] else x.
Definition saved_angle (k : c3) (d : nat) : list R := map (fun i => c_v k 0%nat i d) (seq 0 (c_m k)).

Lemma entry_ok es sat e x k : lookup sat es = Some e -> angles_ok e x k ->
  save_euler_entry es sat = Ok (column (saved_breaks x), column (saved_angle k 0), column (saved_angle k 1), column (saved_angle k 2)).
Proof.
  intros HL [[F1 F2 F3 F4 F5 F6 F7 F8] K1 K2 K3]. unfold save_euler_entry. rewrite HL, F1, F3, K1, K2.
  destruct x as [|b x]; [cbn in F2; lia|]. rewrite (first_last_breaks (b :: x) b 0) by discriminate. reflexivity.
Qed.

Lemma saved_breaks_base x k : (2 <= List.length x)%nat -> (hd 0 x = last x 0 -> List.length x = 2%nat) -> c_k k = 1%nat -> c_m k = (List.length x - 1)%nat ->
  forall b k', full_base b x k -> same_coeffs k k' -> same_base b (base_init (Some (saved_breaks x)) (Some 1%Z) (Some k')).
Proof.
  intros HL HE HK HM b k' [F1 F2 F3 F4 F5 F6 F7 F8] SC. pose proof SC as (S1 & S2 & S3 & S4).
  assert (EB : match saved_breaks x with [b] => Some [b; b] | _ => Some (saved_breaks x) end = Some x).
  { unfold saved_breaks. destruct (Req_EM_T (hd 0 x) (last x 0)) as [E|E].
    - specialize (HE E). destruct x as [|a [|c [|]]]; cbn in *; try lia. congruence.
    - destruct x as [|a [|c x]]; cbn in HL; try lia. reflexivity. }
  unfold base_init. rewrite EB. unfold same_base. cbn [b_breaks b_pieces b_order b_dim b_coeffs option_map].
  rewrite F1, F3, F4, F6, F8. split; [reflexivity|]. split; [reflexivity|]. rewrite <- S1, HK. split; [reflexivity|]. split; [congruence|].
  eapply same_coeffs_trans; [exact SC|]. replace (Z.min 1 (Z.of_nat 1)) with (Z.of_nat (c_k k')) by (rewrite <- S1, HK; reflexivity).
  apply take_last_all.
Qed.

(** Cells whose sizes differ *)
Definition varied (l : list (list R)) : Prop := exists a b, In a l /\ In b l /\ List.length a <> List.length b.

Lemma object_cells l : varied l -> object_array (map column l) = Cells (map column l).
Proof.
  intros (a & b & Ha & Hb & N). unfold object_array. destruct (same_shapes (map column l)) eqn:E; [|reflexivity]. exfalso.
  destruct l as [|c l]; [contradiction|]. cbn [map same_shapes] in E. rewrite forallb_forall in E.
  assert (A : forall y, In y (c :: l) -> List.length y = List.length c).
  { intros y [<-|Hy]; [reflexivity|]. specialize (E (column y) (in_map _ _ _ Hy)). apply shape_eqb_eq in E. cbn in E. congruence. }
  apply N. rewrite (A a Ha), (A b Hb). reflexivity.
Qed.

Section Round.
Variables (es : list (string * euler)) (sats : list string) (ex : string -> list R) (ek : string -> c3).
Hypothesis HN : NoDup sats.
Hypothesis HA : forall s, In s sats -> exists e, lookup s es = Some e /\ angles_ok e (ex s) (ek s).
Hypothesis VB : varied (map (fun s => saved_breaks (ex s)) sats).
Hypothesis VA : varied (map (fun s => saved_angle (ek s) 0) sats).

Lemma VA_any d : varied (map (fun s => saved_angle (ek s) d) sats).
Proof.
  destruct VA as (a & b & Ha & Hb & N). apply in_map_iff in Ha as (s & <- & Hs). apply in_map_iff in Hb as (t & <- & Ht).
  exists (saved_angle (ek s) d), (saved_angle (ek t) d). split; [apply (in_map (fun s => saved_angle (ek s) d)), Hs|].
  split; [apply (in_map (fun s => saved_angle (ek s) d)), Ht|]. unfold saved_angle in *. rewrite !map_length in *. exact N.
Qed.

Lemma save_euler_ok pre : save_euler es (SMeta pre sats) = Ok (mkeud
  (Cells (map column (map (fun s => saved_breaks (ex s)) sats))) (Cells (map column (map (fun s => saved_angle (ek s) 0) sats)))
  (Cells (map column (map (fun s => saved_angle (ek s) 1) sats))) (Cells (map column (map (fun s => saved_angle (ek s) 2) sats)))).
Proof.
  unfold save_euler.
  assert (EM : mapM (save_euler_entry es) sats = Ok (map (fun s => (column (saved_breaks (ex s)), column (saved_angle (ek s) 0), column (saved_angle (ek s) 1), column (saved_angle (ek s) 2))) sats)).
  { clear HN VB VA. revert HA. induction sats as [|s l IH]; intros H; [reflexivity|]. cbn [mapM map].
    destruct (H s (or_introl eq_refl)) as (e & He & Ha). rewrite (entry_ok _ _ _ _ _ He Ha). cbn [bind]. rewrite IH; [reflexivity|]. intros t Ht. apply H. right. exact Ht. }
  rewrite EM. cbn [bind]. rewrite !map_map. cbn [fst snd].
  rewrite <- (map_map (fun s => saved_breaks (ex s)) column), <- (map_map (fun s => saved_angle (ek s) 0) column),
    <- (map_map (fun s => saved_angle (ek s) 1) column), <- (map_map (fun s => saved_angle (ek s) 2) column).
  rewrite (object_cells _ VB), (object_cells _ (VA_any 0)), (object_cells _ (VA_any 1)), (object_cells _ (VA_any 2)). reflexivity.
Qed.

Definition loaded_c3 (s : string) : c3 :=
  mkc3 1 (c_m (ek s)) 3 (fun _ i d => nth i (match d with 0%nat => saved_angle (ek s) 0 | 1%nat => saved_angle (ek s) 1 | _ => saved_angle (ek s) 2 end) 0).

Lemma loaded_same s : In s sats -> same_coeffs (ek s) (loaded_c3 s).
Proof.
  intros Hs. destruct (HA s Hs) as (e & _ & [_ K1 K2 _]). split; [exact K1|]. split; [reflexivity|]. split; [exact K2|].
  rewrite K1, K2. intros r i d Hr Hi Hd. cbn [loaded_c3 c_v]. replace r with 0%nat by lia.
  destruct d as [|[|[|]]]; [| | |lia]; unfold saved_angle; rewrite nth_map_seq by exact Hi; reflexivity.
Qed.

Lemma load_euler_ok arg : fst (name_satellites (List.length sats) arg) = sats ->
  load_euler (mkeud
  (Cells (map column (map (fun s => saved_breaks (ex s)) sats))) (Cells (map column (map (fun s => saved_angle (ek s) 0) sats)))
  (Cells (map column (map (fun s => saved_angle (ek s) 1) sats))) (Cells (map column (map (fun s => saved_angle (ek s) 2) sats)))) arg
  = Ok (combine sats (map (fun s => saved_breaks (ex s)) sats), combine sats (map loaded_c3 sats), name_satellites (List.length sats) arg).
Proof.
  intros NS. unfold load_euler. cbn [u_breaks u_alpha u_beta u_gamma]. rewrite !map_length.
  rewrite NS.
  assert (EM : mapM (load_angles (map column (map (fun s => saved_angle (ek s) 0) sats)) (map column (map (fun s => saved_angle (ek s) 1) sats)) (map column (map (fun s => saved_angle (ek s) 2) sats)))
    (seq 0 (List.length sats)) = Ok (map loaded_c3 sats)).
  { assert (G : forall n k, (k + n = List.length sats)%nat ->
      mapM (load_angles (map column (map (fun s => saved_angle (ek s) 0) sats)) (map column (map (fun s => saved_angle (ek s) 1) sats)) (map column (map (fun s => saved_angle (ek s) 2) sats))) (seq k n)
      = Ok (map loaded_c3 (skipn k sats))).
    { induction n as [|n IH]; intros k Hk; [rewrite skipn_all2 by lia; reflexivity|]. cbn [seq mapM].
      destruct (nth_error sats k) as [s|] eqn:Es; [|apply nth_error_None in Es; lia].
      unfold load_angles at 1. rewrite !map_map, !nth_error_map, Es. cbn [option_map].
      assert (SH : forall d d', shape_eqb (a_sh (column (saved_angle (ek s) d))) (a_sh (column (saved_angle (ek s) d'))) = true).
      { intros d d'. cbn. unfold saved_angle. rewrite !map_length. apply shape_eqb_refl. }
      rewrite !SH. cbn [andb bind].
      replace (skipn k sats) with (s :: skipn (S k) sats).
      2:{ clear -Es. revert k Es. induction sats as [|t l IH]; intros [|k] E; cbn in *; try discriminate; [congruence|]. apply IH. exact E. }
      specialize (IH (S k) ltac:(lia)). rewrite !map_map in IH. rewrite IH. cbn [bind map]. f_equal. f_equal.
      unfold loaded_c3. cbn [column a_v]. f_equal. unfold saved_angle. rewrite map_length, seq_length. reflexivity. }
    apply (G (List.length sats) 0%nat). lia. }
  rewrite EM. cbn [bind]. rewrite map_map. cbn [squeeze column a_v]. rewrite map_id.
  rewrite !make_dict_nodup; [reflexivity| |]; rewrite map_fst_combine by (rewrite map_length; reflexivity); exact HN.
Qed.

Lemma nodup_combine_lookup {A} (f : string -> A) s : In s sats -> lookup s (combine sats (map f sats)) = Some (f s).
Proof.
  intros Hs. apply lookup_nodup; [rewrite map_fst_combine by (rewrite map_length; reflexivity); exact HN|].
  clear -Hs. induction sats as [|t l IH]; [contradiction|]. cbn [map combine]. destruct Hs as [->|Hs]; [left; reflexivity|right; apply IH, Hs].
Qed.

(** the entries that the constructor makes of the loaded angles *)
Lemma reload_entries pre : (List.length sats <= List.length pre)%nat ->
  exists es', mapM (euler_entry (Some (combine sats (map loaded_c3 sats))) (MetaPre pre))
      (combine (seq 0 (List.length (combine sats (map (fun s => saved_breaks (ex s)) sats)))) (combine sats (map (fun s => saved_breaks (ex s)) sats))) = Ok es' /\
    map fst es' = sats /\
    forall s, In s sats -> exists e e', lookup s es = Some e /\ lookup s es' = Some e' /\ same_base (eu_base e) (eu_base e').
Proof.
  intros HP. set (b := combine sats (map (fun s => saved_breaks (ex s)) sats)).
  assert (LB : List.length b = List.length sats) by (unfold b; rewrite combine_length, map_length; lia).
  assert (FB : map fst b = sats) by (unfold b; apply map_fst_combine; rewrite map_length; reflexivity).
  destruct (mapM_total (euler_entry (Some (combine sats (map loaded_c3 sats))) (MetaPre pre)) (combine (seq 0 (List.length b)) b)) as (es' & E').
  { intros [i [s br]] Hi. unfold euler_entry, prerotation.
    assert (Hlt : (i < List.length pre)%nat). { apply in_combine_l in Hi. apply in_seq in Hi. lia. }
    destruct (nth_error pre i) as [p|] eqn:EP; [|apply nth_error_None in EP; lia]. cbn [bind].
    assert (Hs : In s sats). { apply in_combine_r in Hi. rewrite <- FB. apply (in_map fst _ _ Hi). }
    rewrite (nodup_combine_lookup loaded_c3 s Hs). eauto. }
  exists es'. split; [exact E'|]. destruct (euler_keys _ _ _ _ _ E') as [K1 K2]. split; [congruence|].
  intros s Hs. destruct (HA s Hs) as (e & He & Ha). exists e.
  destruct (K2 s (saved_breaks (ex s))) as (cs & C & p & A1 & A2 & A3).
  { apply lookup_in. unfold b. apply (nodup_combine_lookup (fun s => saved_breaks (ex s))), Hs. }
  injection A1 as <-. rewrite (nodup_combine_lookup loaded_c3 s Hs) in A2. injection A2 as <-.
  exists (mkeuler (base_init (Some (saved_breaks (ex s))) (Some 1%Z) (Some (loaded_c3 s))) p). split; [exact He|]. split.
  - apply lookup_nodup; [rewrite K1, FB; exact HN|exact A3].
  - cbn [eu_base]. destruct Ha as [F K1' K2' K3']. eapply saved_breaks_base with (k := ek s); [apply (fb_len _ _ _ F)|exact K3'|exact K1'|apply (fb_m _ _ _ F)|exact F|apply loaded_same, Hs].
Qed.
End Round.
