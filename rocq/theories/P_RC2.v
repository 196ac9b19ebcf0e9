(** Proofs about the RC-index files: saving, and reading the index. *)
From Coq Require Import Reals QArith Qreals List Arith ZArith String Ascii Bool Lia.
From Verif Require Import M_Prelude M_ND M_Text M_Chaos M_RC Spec_Field Spec_Loaders Spec_Chaos Spec_RC P_SHC2 P_RC.
Import ListNotations.
Open Scope nat_scope.

Definition float_sets (es : list epoch) : list (string * dataset) :=
  [("time", DFloat (map (fun e => Some (ep_time e)) es)); ("RC", DFloat (map (fun e => Some (ep_rc e)) es));
   ("RC_e", DFloat (map (fun e => Some (ep_e e)) es)); ("RC_i", DFloat (map (fun e => Some (ep_i e)) es))]%string.
Definition rc_h5 (es : list epoch) (flags : list text) : file := FH5 (float_sets es ++ [("flag"%string, DBytes flags)]).

(** ** Reading the index *)
Definition with_rc (E : env) (tab : rctable) : env :=
  mkenv (e_gsm E) (e_sm E) (Some tab) (e_dipole E) (e_rsurf E) (e_oob E).

Lemma no_nan_ok es (f : epoch -> Q) :
  no_nan (combine (map (fun e => Some (ep_time e)) es) (map (fun e => Some (f e)) es)) =
  Ok (map (fun e => (Q2R (ep_time e), Q2R (f e))) es).
Proof. induction es as [|e es IH]; [reflexivity|]. cbn. rewrite IH. reflexivity. Qed.

Lemma get_sets es more source :
  bind (rc_name source) (fun n => bind (df_get n (float_sets es ++ more)) float_set) =
  match String.get 0 source with
  | None => Err IndexError
  | Some ch => if Ascii.eqb ch "e" then Ok (map (fun e => Some (ep_e e)) es)
               else if Ascii.eqb ch "i" then Ok (map (fun e => Some (ep_i e)) es)
               else bind (df_get ("RC_" ++ String ch "")%string more) float_set
  end.
Proof.
  unfold rc_name. destruct (String.get 0 source) as [ch|]; [|reflexivity]. cbn [bind].
  destruct (Ascii.eqb_spec ch "e") as [->|He]; [reflexivity|].
  destruct (Ascii.eqb_spec ch "i") as [->|Hi]; [reflexivity|].
  unfold float_sets. cbn [app df_get].
  replace (("time" =? "RC_" ++ String ch "")%string) with false by reflexivity.
  replace (("RC" =? "RC_" ++ String ch "")%string) with false by reflexivity.
  replace (("RC_e" =? "RC_" ++ String ch "")%string) with (Ascii.eqb "e" ch) by (cbn -[Ascii.eqb]; destruct (Ascii.eqb "e" ch); reflexivity).
  replace (("RC_i" =? "RC_" ++ String ch "")%string) with (Ascii.eqb "i" ch) by (cbn -[Ascii.eqb]; destruct (Ascii.eqb "i" ch); reflexivity).
  destruct (Ascii.eqb_spec "e" ch) as [K|_]; [exfalso; apply He; symmetry; exact K|].
  destruct (Ascii.eqb_spec "i" ch) as [K|_]; [exfalso; apply Hi; symmetry; exact K|]. reflexivity.
Qed.

Lemma flag_no_rc A ch (v : A) : df_get ("RC_" ++ String ch "")%string [("flag"%string, v)] = Err KeyError.
Proof. reflexivity. Qed.

Definition finish (t y : list cell) (time : nd R) : result (nd R) :=
  if negb (List.length t =? List.length y) then Err ValueError else
  bind (no_nan (combine t y)) (fun rows =>
  let l := sort_rows rows in
  match l with
  | [] => Err ValueError
  | _ => if existsb (out_of_bounds l) (elems time) then Err ValueError
         else Ok (mknd (sh time) (fun i => interp_sorted l (at_ time i)))
  end).
Lemma finish_ok es (f : epoch -> Q) E source time (col : R * R * R -> R) :
  rc_column source = Ok col -> (forall e, col (Q2R (ep_time e), Q2R (ep_e e), Q2R (ep_i e)) = Q2R (f e)) ->
  finish (map (fun e => Some (ep_time e)) es) (map (fun e => Some (f e)) es) time = rc_values (with_rc E (rc_table es)) source time.
Proof.
  intros Hc Hf. unfold finish, rc_values. rewrite !map_length, Nat.eqb_refl. cbn [negb]. rewrite no_nan_ok.
  cbn [with_rc e_rc load bind]. rewrite Hc. cbn [bind].
  replace (map (fun row => (fst (fst row), col row)) (rc_table es)) with (map (fun e => (Q2R (ep_time e), Q2R (f e))) es); [reflexivity|].
  unfold rc_table. rewrite map_map. apply map_ext. intros e. rewrite Hf. reflexivity.
Qed.

Lemma h5_values fs p es more source time E :
  fs p = Some (FH5 (float_sets es ++ more)) -> (forall ch, df_get ("RC_" ++ String ch "")%string more = Err KeyError) ->
  rc_from_file fs p source time = rc_values (with_rc E (rc_table es)) source time.
Proof.
  intros Hp Hm. unfold rc_from_file, rc_arrays. rewrite Hp.
  change (df_get "time" (float_sets es ++ more)) with (@Ok dataset (DFloat (map (fun e => Some (ep_time e)) es))).
  cbn [bind float_set]. pose proof (get_sets es more source) as G.
  unfold rc_name in *. destruct (String.get 0 source) as [ch|] eqn:S0.
  2:{ cbn [bind]. unfold rc_values. cbn [with_rc e_rc load bind]. unfold rc_column. rewrite S0. reflexivity. }
  cbn [bind] in G |- *. unfold rc_values. cbn [with_rc e_rc load bind]. unfold rc_column. rewrite S0.
  destruct (Ascii.eqb_spec ch "e") as [->|He].
  { clear G. cbn [bind]. match goal with |- _ = ?r => change (finish (map (fun e => Some (ep_time e)) es) (map (fun e => Some (ep_e e)) es) time = r) end.
    rewrite (finish_ok es ep_e E source time (fun row => snd (fst row)));
      [|unfold rc_column; rewrite S0; reflexivity|reflexivity].
    unfold rc_values. cbn [with_rc e_rc load bind]. unfold rc_column. rewrite S0. reflexivity. }
  destruct (Ascii.eqb_spec ch "i") as [->|Hi].
  { clear G. cbn [bind]. match goal with |- _ = ?r => change (finish (map (fun e => Some (ep_time e)) es) (map (fun e => Some (ep_i e)) es) time = r) end.
    rewrite (finish_ok es ep_i E source time (fun row => snd row));
      [|unfold rc_column; rewrite S0; reflexivity|reflexivity].
    unfold rc_values. cbn [with_rc e_rc load bind]. unfold rc_column. rewrite S0. reflexivity. }
  rewrite Hm in G. cbn [bind] in G |- *.
  destruct (df_get _ (float_sets es ++ more)) as [d|e] eqn:D; cbn [bind] in G |- *.
  - destruct d; cbn in G; [discriminate|]. exfalso.
    revert D. unfold float_sets. cbn [app df_get].
    replace (("time" =? "RC_" ++ String ch "")%string) with false by reflexivity.
    replace (("RC" =? "RC_" ++ String ch "")%string) with false by reflexivity.
    destruct (_ =? _)%string; [discriminate|]. destruct (_ =? _)%string; [discriminate|]. rewrite Hm. discriminate.
  - exact (f_equal (fun r : result (list cell) => match r with Ok _ => Err KeyError | Err e => Err e end) G).
Qed.

Lemma dat_values fs p content es source time E :
  fs p = Some (FText content) -> rc_textfile content es ->
  rc_from_file fs p source time = rc_values (with_rc E (rc_table es)) source time.
Proof.
  intros Hp Hc. destruct (load_ok fs p content es Hp Hc) as [Hl _].
  rewrite <- (h5_values (update fs p (FH5 (float_sets es ++ []))) p es [] source time E);
    [|unfold update; rewrite String.eqb_refl; reflexivity|reflexivity].
  unfold rc_from_file, rc_arrays. rewrite Hp, Hl. unfold update. rewrite String.eqb_refl.
  cbn [bind f_cols]. 
  change (df_get "time" (rc_columns es)) with (@Ok column (CFloat (map (fun e => Some (ep_time e)) es))).
  change (df_get "time" (float_sets es ++ [])) with (@Ok dataset (DFloat (map (fun e => Some (ep_time e)) es))).
  cbn [bind float_set float_values]. unfold rc_name. destruct (String.get 0 source) as [ch|]; [|reflexivity]. cbn [bind].
  unfold rc_columns, float_sets. cbn [app df_get].
  replace (("time" =? "RC_" ++ String ch "")%string) with false by reflexivity.
  replace (("RC" =? "RC_" ++ String ch "")%string) with false by reflexivity.
  destruct ("RC_e" =? _)%string; [reflexivity|]. destruct ("RC_i" =? _)%string; [reflexivity|].
  replace (("flag" =? "RC_" ++ String ch "")%string) with false by reflexivity. reflexivity.
Qed.

(** ** Saving *)
Lemma to_bytes_ok es : Forall (fun e => ascii_only (ep_flag e) = true) es ->
  mapM to_bytes (map (fun e => Some (ep_flag e)) es) = Ok (map ep_flag es).
Proof. induction 1 as [|e es He H IH]; [reflexivity|]. cbn. rewrite He. cbn. rewrite IH. reflexivity. Qed.
Lemma to_bytes_bad es : Exists (fun e => ascii_only (ep_flag e) = false) es ->
  exists err, mapM to_bytes (map (fun e => Some (ep_flag e)) es) = Err err.
Proof.
  intros H. apply Exists_exists in H. destruct H as [e [Hin He]].
  apply (mapM_err to_bytes _ (Some (ep_flag e))).
  - apply in_map_iff. exists e. split; [reflexivity|exact Hin].
  - exists ValueError. unfold to_bytes. rewrite He. reflexivity.
Qed.

(** the contents after each statement of the loop *)
Definition stages (es : list epoch) : list (list (string * dataset)) :=
  [[]; firstn 1 (float_sets es); firstn 2 (float_sets es); firstn 3 (float_sets es); float_sets es;
   (float_sets es ++ [("flag"%string, DBytes (map (fun _ => []) es))])%list].
Lemma write_ok es : Forall (fun e => ascii_only (ep_flag e) = true) es ->
  h5_write (rc_columns es) [] =
  ((tl (stages es) ++ [(float_sets es ++ [("flag"%string, DBytes (map (fun e => firstn 1 (ep_flag e)) es))])%list])%list, true).
Proof.
  intros H. unfold rc_columns. cbn [h5_write String.eqb Ascii.eqb Bool.eqb negb]. rewrite (to_bytes_ok _ H).
  rewrite !map_map. reflexivity.
Qed.
Lemma write_bad es : Exists (fun e => ascii_only (ep_flag e) = false) es ->
  h5_write (rc_columns es) [] = (tl (stages es), false).
Proof.
  intros H. unfold rc_columns. cbn [h5_write String.eqb Ascii.eqb Bool.eqb negb]. destruct (to_bytes_bad _ H) as [err ->].
  rewrite !map_map. reflexivity.
Qed.

Theorem save_succeeds fs out dat content es :
  fs dat = Some (FText content) -> rc_textfile content es -> Forall (fun e => ascii_only (ep_flag e) = true) es ->
  let r := save_RC_h5file fs true out dat in
  r_success r = true /\ final fs r out = Some (rc_h5 es (map (fun e => firstn 1 (ep_flag e)) es)) /\
  forall p, p <> out -> final fs r p = fs p.
Proof.
  intros Hd Hc Ha r. unfold r, save_RC_h5file. destruct (load_ok fs dat content es Hd Hc) as (_ & -> & _).
  cbn [negb f_cols]. rewrite (write_ok _ Ha). cbn [r_success]. split; [reflexivity|].
  unfold final. cbn [r_states map stages tl app last]. unfold update. rewrite String.eqb_refl. split; [reflexivity|].
  intros p Hp. destruct (String.eqb_spec p out); [contradiction|reflexivity].
Qed.

Theorem save_bad_flags fs out dat content es :
  fs dat = Some (FText content) -> rc_textfile content es -> Exists (fun e => ascii_only (ep_flag e) = false) es ->
  let r := save_RC_h5file fs true out dat in
  r_success r = false /\ final fs r out = Some (rc_h5 es (map (fun _ => []) es)).
Proof.
  intros Hd Hc Ha r. unfold r, save_RC_h5file. destruct (load_ok fs dat content es Hd Hc) as (_ & -> & _).
  cbn [negb f_cols]. rewrite (write_bad _ Ha). cbn [r_success]. split; [reflexivity|].
  unfold final. cbn [r_states map stages tl app last]. unfold update. rewrite String.eqb_refl. reflexivity.
Qed.

Theorem save_touches_only_out fs w out dat st p : In st (r_states (save_RC_h5file fs w out dat)) -> p <> out -> st p = fs p.
Proof.
  unfold save_RC_h5file. intros H Hp. destruct (load_RC_datfile fs dat (Some false)) as [df|e].
  2:{ cbn in H. destruct H as [<-|[]]. reflexivity. }
  destruct w; cbn [negb] in H; [|cbn in H; destruct H as [<-|[]]; reflexivity].
  destruct (h5_write (f_cols df) []) as [steps ok]. cbn [r_states] in H. destruct H as [<-|H]; [reflexivity|].
  apply in_map_iff in H. destruct H as [sets [<- _]]. unfold update. destruct (String.eqb_spec p out); [contradiction|reflexivity].
Qed.
Theorem save_unreadable fs w out dat e : load_RC_datfile fs dat None = Err e \/ w = false ->
  save_RC_h5file fs w out dat = mkrun [fs] false.
Proof.
  intros H. unfold save_RC_h5file.
  change (load_RC_datfile fs dat (Some false)) with (load_RC_datfile fs dat None).
  destruct (load_RC_datfile fs dat None) as [df|e']; [|reflexivity]. destruct H as [H| ->]; [discriminate|reflexivity].
Qed.

(** crash points *)
Lemma stage_values fs p es k s time E : k < 7 ->
  fs p = Some (FH5 (nth k (stages es) (float_sets es ++ [("flag"%string, DBytes (map (fun e => firstn 1 (ep_flag e)) es))])%list)) ->
  let source := src_name s in
  rc_from_file fs p source time = Err KeyError \/ rc_from_file fs p source time = rc_values (with_rc E (rc_table es)) source time.
Proof.
  intros Hk Hp source.
  assert (S0 : exists ch, String.get 0 source = Some ch /\ (ch = "e"%char \/ ch = "i"%char)).
  { unfold source. destruct s; cbn; [exists "i"%char|exists "e"%char]; tauto. }
  clearbody source.
  destruct S0 as (ch & S0 & Hch).
  assert (HE : k < 4 -> rc_from_file fs p source time = Err KeyError \/ (k = 3 /\ ch = "e"%char)).
  { intros K. unfold rc_from_file, rc_arrays. rewrite Hp.
    do 4 (destruct k as [|k]; [unfold stages, float_sets, rc_name; cbn [nth firstn df_get bind float_set]; rewrite ?S0;
      destruct Hch as [-> | ->]; try (left; reflexivity); try (right; split; reflexivity)|]). lia. }
  destruct (Nat.lt_ge_cases k 3) as [K|K].
  { destruct (HE ltac:(lia)) as [H|[H _]]; [left; exact H|lia]. }
  destruct (Nat.eq_dec k 3) as [->|K3].
  { destruct (HE ltac:(lia)) as [H|[_ ->]]; [left; exact H|]. right.
    rewrite <- (h5_values (update fs p (FH5 (float_sets es ++ []))) p es [] source time E);
      [|unfold update; rewrite String.eqb_refl; reflexivity|reflexivity].
    unfold rc_from_file, rc_arrays. rewrite Hp. unfold update. rewrite String.eqb_refl.
    unfold rc_name. rewrite S0. reflexivity. }
  right. do 4 (destruct k as [|k]; [lia|]). destruct k as [|[|[|k]]]; [| | |lia]; cbn [nth stages] in Hp.
  - apply (h5_values fs p es [] source time E); [|reflexivity]. rewrite app_nil_r. exact Hp.
  - refine (h5_values fs p es _ source time E Hp _). intros c. reflexivity.
  - refine (h5_values fs p es _ source time E Hp _). intros c. reflexivity.
Qed.
Theorem save_crash fs w out dat content es st s time E :
  fs dat = Some (FText content) -> rc_textfile content es -> let source := src_name s in
  In st (r_states (save_RC_h5file fs w out dat)) ->
  st out = fs out \/ rc_from_file st out source time = Err KeyError \/
  rc_from_file st out source time = rc_values (with_rc E (rc_table es)) source time.
Proof.
  intros Hd Hc source H. unfold save_RC_h5file in H. destruct (load_ok fs dat content es Hd Hc) as (_ & HL & _). rewrite HL in H.
  destruct w; cbn [negb] in H; [|cbn in H; destruct H as [<-|[]]; left; reflexivity].
  cbn [f_cols] in H.
  assert (HW : exists ok, h5_write (rc_columns es) [] = (tl (stages es), ok) \/ h5_write (rc_columns es) [] =
      ((tl (stages es) ++ [(float_sets es ++ [("flag"%string, DBytes (map (fun e => firstn 1 (ep_flag e)) es))])%list])%list, ok)).
  { destruct (Forall_Exists_dec (fun e => ascii_only (ep_flag e) = true) (fun e => bool_dec _ _) es) as [F|F].
    - exists true. right. apply write_ok, F.
    - exists false. left. apply write_bad. refine (Exists_impl _ _ F). intros e. apply not_true_is_false. }
  destruct HW as [ok HW].
  enough (st = fs \/ exists k, k < 7 /\ st = update fs out (FH5 (nth k (stages es)
     (float_sets es ++ [("flag"%string, DBytes (map (fun e => firstn 1 (ep_flag e)) es))])%list))) as [-> | (k & Hk & ->)].
  - left. reflexivity.
  - right. refine (stage_values _ out es k s time E Hk _). unfold update. rewrite String.eqb_refl. reflexivity.
  - destruct HW as [HW|HW]; rewrite HW in H; cbn [r_states stages tl app map In] in H; destruct H as [<-|H]; try (left; reflexivity); right.
    + repeat (destruct H as [<-|H]; [match goal with |- exists k, _ /\ update _ _ (FH5 ?s) = _ => idtac end; 
        first [exists 0; split; [lia|reflexivity]|exists 1; split; [lia|reflexivity]|exists 2; split; [lia|reflexivity]|exists 3; split; [lia|reflexivity]
              |exists 4; split; [lia|reflexivity]|exists 5; split; [lia|reflexivity]|exists 6; split; [lia|reflexivity]]|]). destruct H.
    + repeat (destruct H as [<-|H]; [match goal with |- exists k, _ /\ update _ _ (FH5 ?s) = _ => idtac end; 
        first [exists 0; split; [lia|reflexivity]|exists 1; split; [lia|reflexivity]|exists 2; split; [lia|reflexivity]|exists 3; split; [lia|reflexivity]
              |exists 4; split; [lia|reflexivity]|exists 5; split; [lia|reflexivity]|exists 6; split; [lia|reflexivity]]|]). destruct H.
Qed.
