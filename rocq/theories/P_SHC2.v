(** Proofs of C47 and C48. *)
From Coq Require Import List Arith ZArith QArith Qabs Qround Ascii String Bool Lia Lqa.
From Verif Require Import M_Prelude M_Time M_Text M_SHC P_Text P_SHC Spec_SHC Spec_Field.
Import ListNotations.

Lemma Forall2_length {A B} (P : A -> B -> Prop) l m : Forall2 P l m -> List.length l = List.length m.
Proof. induction 1; cbn; congruence. Qed.
Lemma Forall2_impl {A B} (P Q : A -> B -> Prop) l m : (forall x y, P x y -> Q x y) -> Forall2 P l m -> Forall2 Q l m.
Proof. intros H. induction 1; constructor; auto. Qed.

Lemma one_line_in l : ~ In "010"%char l -> one_line l.
Proof.
  intros H. apply Forall_forall. intros c Hc. destruct (Ascii.eqb_spec c "010") as [ -> |]; [contradiction|reflexivity].
Qed.
Lemma one_line_txt_created : one_line (txt "# Created on ") /\ one_line (txt " UTC.") /\
  one_line (txt "# Leap years are accounted for in decimal years format (") /\ one_line (txt ").") /\ forall b : bool, one_line (txt (if b then "True" else "False")).
Proof. repeat split; try (repeat constructor). intros []; repeat constructor. Qed.

(** the content written on success *)
Definition content (header now : text) (lp : bool) (nmin nmax : nat) (order : Z) (ys : list Q) (size rows first : nat) (at_ : nat -> nat -> Q) : text :=
  (comment_text header now lp (Z.of_nat nmin) (Z.of_nat nmax) size order ++ (txt "  " ++ flat_map (fun y => txt " " ++ fmt_q y) ys) ++ nl ++
   flat_map (fun '(j, nm) => row_text rows at_ (first + j) nm ++ nl) (combine (seq 0 (List.length (deg_ord nmin nmax))) (deg_ord nmin nmax)))%list.

Lemma slice_pos_small z len : (0 <= z <= Z.of_nat len)%Z -> slice_pos z len = Z.to_nat z.
Proof. intros H. unfold slice_pos. destruct (Z.ltb_spec z 0); [lia|]. lia. Qed.

(** normalised arguments *)
Definition nmax_of (cols : nat) (o : option Z) : Z := match o with None => (Z.sqrt (Z.of_nat cols + 1) - 1)%Z | Some n => n end.
Definition orelse {A} (o : option A) (d : A) : A := match o with None => d | Some x => x end.

Lemma save_ok now fs l coeffs order path nmin nmax lp header ys a b :
  orelse nmin 1%Z = Z.of_nat a -> nmax_of (c_cols coeffs) nmax = Z.of_nat b -> (1 <= a <= b)%nat -> ((b + 1) * (b + 1) - 1 <= c_cols coeffs)%nat ->
  mapM (fun t => mjd_to_dyear t (Some (orelse lp true))) l = Ok ys ->
  save_shcfile now fs (TVec l) coeffs order path nmin nmax lp header =
  (write_file fs (orelse path "model.shc"%string)
     (content (orelse header []) now (orelse lp true) a b (orelse order 1%Z) ys (List.length l)
        (if c_one_dim coeffs then 1%nat else c_rows coeffs) (a * a - 1) (c_at coeffs)), Ok tt).
Proof.
  intros Ha Hb Hab Hc Hy. unfold save_shcfile.
  change (match nmin with None => 1%Z | Some n => n end) with (orelse nmin 1%Z).
  change (match nmax with None => (Z.sqrt (Z.of_nat (c_cols coeffs) + 1) - 1)%Z | Some n => n end) with (nmax_of (c_cols coeffs) nmax).
  change (match lp with None => true | Some b => b end) with (orelse lp true).
  rewrite Ha, Hb. destruct (Z.ltb_spec (Z.of_nat b) (Z.of_nat a)); [lia|]. destruct (Z.ltb_spec (Z.of_nat a) 0); [lia|].
  rewrite !slice_pos_small by nia. rewrite !Nat2Z.id.
  replace (Z.to_nat (Z.of_nat a * Z.of_nat a - 1)) with (a * a - 1)%nat by nia.
  replace (Z.to_nat ((Z.of_nat b + 1) * (Z.of_nat b + 1) - 1)) with ((b + 1) * (b + 1) - 1)%nat by nia.
  unfold write_shc. rewrite emit_ok, emit_ok. rewrite (write_times _ _ ys Hy). rewrite emit_ok.
  pose proof (deg_ord_length a b ltac:(lia)) as L.
  rewrite write_rows by nia. cbn [snd]. f_equal. f_equal. unfold content. cbn [app]. rewrite <- !app_assoc. reflexivity.
Qed.

Lemma combine_map_lines {A} (f : nat -> A -> text) D : forall k,
  flat_map (fun '(j, nm) => f j nm ++ nl)%list (combine (seq k (List.length D)) D) =
  flat_map (fun t => t ++ nl)%list (map (fun '(j, nm) => f j nm) (combine (seq k (List.length D)) D)).
Proof. induction D as [|x D IH]; intros k; [reflexivity|]. cbn [List.length seq combine flat_map map]. rewrite IH. reflexivity. Qed.

Lemma rows_parse rows at_ first D : forall k, exists tab,
  flat_map fromstring (map (fun '(j, nm) => row_text rows at_ (first + j) nm) (combine (seq k (List.length D)) D)) = List.concat tab /\
  Forall (fun l => List.length l = (rows + 2)%nat) tab /\ List.length tab = List.length D /\
  forall j i, (j < List.length D)%nat -> (i < rows)%nat ->
    exists l, nth_error (map (skipn 2) tab) j = Some l /\ List.length l = rows /\ eight_decimals (at_ i (first + (k + j))%nat) (nth i l 0%Q).
Proof.
  induction D as [|nm D IH]; intros k.
  - exists []. cbn. split; [reflexivity|]. split; [constructor|]. split; [reflexivity|]. intros j i Hj. lia.
  - destruct (IH (S k)) as (tab & E & F & L & V). destruct (row_line rows at_ (first + k) nm) as (_ & _ & a & b & qs & Eq & _ & _ & H2).
    pose proof (Forall2_length _ _ _ H2) as HL. rewrite seq_length in HL.
    exists ((a :: b :: qs) :: tab). cbn [List.length seq combine flat_map map List.concat]. rewrite Eq, E. split; [reflexivity|].
    split; [constructor; [cbn; lia|exact F]|]. split; [lia|]. intros j i Hj Hi. destruct j as [|j].
    + exists qs. cbn [nth_error skipn]. split; [reflexivity|]. split; [lia|]. rewrite Nat.add_0_r.
      assert (G : forall s qs, Forall2 (fun i q => eight_decimals (at_ i (first + k)%nat) q) (seq s (List.length qs)) qs -> forall i, (i < List.length qs)%nat -> eight_decimals (at_ (s + i)%nat (first + k)%nat) (nth i qs 0%Q)).
      { clear. intros s qs. revert s. induction qs as [|q qs IHq]; intros s H i Hi; [cbn in Hi; lia|]. cbn [List.length seq] in H. inversion H; subst.
        destruct i as [|i]; [rewrite Nat.add_0_r; assumption|]. replace (s + S i)%nat with (S s + i)%nat by lia. apply IHq; [assumption|cbn in Hi; lia]. }
      rewrite HL in H2. apply (G 0%nat qs H2 i). lia.
    + cbn [nth_error]. destruct (V j i ltac:(lia) Hi) as (l & E1 & E2 & E3). exists l. split; [exact E1|]. split; [exact E2|].
      replace (k + S j)%nat with (S k + j)%nat by lia. exact E3.
Qed.

Lemma load_content header now lp a b order ys rows first at_ :
  comment_lines header -> ~ In "010"%char now -> (1 <= a <= b)%nat -> List.length ys = rows ->
  exists times tab, Forall2 eight_decimals ys times /\
    load_shcfile (content header now lp a b order ys rows rows first at_) (Some lp) None =
      bind (mapM (fun t => dyear_to_mjd t (Some lp)) times) (fun mjd => Ok (mkshc mjd tab [Z.of_nat a; Z.of_nat b; Z.of_nat rows; order; (order - 1)%Z])) /\
    List.length tab = ((b + 1) * (b + 1) - a * a)%nat /\
    forall j i, (j < List.length tab)%nat -> (i < rows)%nat ->
      exists l, nth_error tab j = Some l /\ List.length l = rows /\ eight_decimals (at_ i (first + j)%nat) (nth i l 0%Q).
Proof.
  intros (hs & -> & Hh) Hn Hab HL.
  destruct (time_line ys) as (T1 & T2 & qs & T3 & T4). set (tl := (txt "  " ++ _)%list) in *.
  destruct (param_line [Z.of_nat b; Z.of_nat rows; order; (order - 1)%Z] (Z.of_nat a)) as (P1 & P2 & P3). set (pl := (print_Z (Z.of_nat a) ++ _)%list) in *.
  destruct one_line_txt_created as (O1 & O2 & O3 & O4 & O5).
  set (D := deg_ord a b). set (rl := map (fun '(j, nm) => row_text rows at_ (first + j) nm) (combine (seq 0 (List.length D)) D)).
  set (l1 := (txt "# Created on " ++ now ++ txt " UTC.")%list).
  set (l2 := (txt "# Leap years are accounted for in decimal years format (" ++ txt (if lp then "True" else "False") ++ txt ").")%list).
  set (hl := map (fun l => "#"%char :: l) hs).
  assert (EC : content (flat_map (fun l => ("#"%char :: l) ++ ["010"%char])%list hs) now lp a b order ys rows rows first at_ =
     (flat_map (fun l => l ++ nl) (hl ++ [l1; l2; pl; tl] ++ rl) ++ [])%list).
  { unfold content, comment_text. rewrite !flat_map_app. rewrite app_nil_r. cbn [flat_map]. rewrite app_nil_r.
    assert (E0 : flat_map (fun l => ("#"%char :: l) ++ ["010"%char])%list hs = flat_map (fun l => l ++ nl)%list hl).
    { unfold hl. clear. induction hs as [|h hs IH]; [reflexivity|]. cbn [flat_map map]. rewrite IH. reflexivity. }
    rewrite E0. unfold rl. rewrite combine_map_lines. fold D. unfold l1, l2, pl, tl. cbn [flat_map].
    rewrite app_nil_r. rewrite <- !app_assoc. reflexivity. }
  assert (ONE : Forall one_line (hl ++ [l1; l2; pl; tl] ++ rl)).
  { apply Forall_app. split; [|apply Forall_app; split].
    - unfold hl. apply Forall_forall. intros x Hx. apply in_map_iff in Hx. destruct Hx as (h & <- & Hh'). rewrite Forall_forall in Hh.
      constructor; [reflexivity|]. apply one_line_in, Hh, Hh'.
    - constructor; [unfold l1; apply one_line_app; [exact O1|]; apply one_line_app; [apply one_line_in, Hn|exact O2]|].
      constructor; [unfold l2; apply one_line_app; [exact O3|]; apply one_line_app; [apply O5|exact O4]|].
      constructor; [exact P1|]. constructor; [exact T1|constructor].
    - unfold rl. apply Forall_forall. intros x Hx. apply in_map_iff in Hx. destruct Hx as ([j nm] & <- & _). apply row_line. }
  destruct (rows_parse rows at_ first D 0) as (tab & R1 & R2 & R3 & R4). fold rl in R1.
  assert (FOLD : fold_left (load_line ["#"%char]) (lines (content (flat_map (fun l => ("#"%char :: l) ++ ["010"%char])%list hs) now lp a b order ys rows rows first at_)) (None, []) =
     (Some [Z.of_nat a; Z.of_nat b; Z.of_nat rows; order; (order - 1)%Z], (qs ++ List.concat tab)%list)).
  { rewrite EC, lines_of_lines by exact ONE. change (lines []) with (@nil text). rewrite app_nil_r.
    replace (hl ++ [l1; l2; pl; tl] ++ rl)%list with ((hl ++ [l1; l2]) ++ pl :: (tl :: rl))%list by (rewrite <- app_assoc; reflexivity).
    rewrite fold_left_app, (load_comments (hl ++ [l1; l2])%list).
    - cbn [fold_left].
      assert (S1 : load_line ["#"%char] (None, []) pl = (Some [Z.of_nat a; Z.of_nat b; Z.of_nat rows; order; (order - 1)%Z], [])).
      { unfold load_line. rewrite P2, P3. reflexivity. }
      rewrite S1. 
      assert (S2 : forall v, load_line ["#"%char] (Some v, []) tl = (Some v, qs)).
      { intros v. unfold load_line. rewrite T2, T3. reflexivity. }
      rewrite S2, load_data.
      + rewrite R1. reflexivity.
      + unfold rl. apply Forall_forall. intros x Hx. apply in_map_iff in Hx. destruct Hx as ([j nm] & <- & _). apply row_line.
    - apply Forall_app. split; [|repeat constructor].
      unfold hl. apply Forall_forall. intros x Hx. apply in_map_iff in Hx. destruct Hx as (h & <- & _). reflexivity. }
  pose proof (Forall2_length _ _ _ T4) as LQ.
  exists qs, (map (skipn 2) tab). split; [exact T4|]. split; [|split].
  - unfold load_shcfile. rewrite FOLD. cbn [nth_error].
    assert (SP : slice_pos (Z.of_nat rows) (List.length (qs ++ List.concat tab)) = List.length qs).
    { rewrite slice_pos_small; [lia|]. rewrite app_length. lia. }
    rewrite SP. rewrite firstn_app, Nat.sub_diag, firstn_all, firstn_O, app_nil_r.
    rewrite skipn_app, Nat.sub_diag, skipn_all. cbn [app skipn].
    destruct (Z.leb_spec (Z.of_nat rows + 2) 0); [lia|]. replace (Z.to_nat (Z.of_nat rows + 2)) with (rows + 2)%nat by lia.
    rewrite (concat_length _ _ R2), Nat.mod_mul by lia. cbn [Nat.eqb negb].
    rewrite (chunk_concat (rows + 2) tab ltac:(lia) R2) by (rewrite (concat_length _ _ R2); lia). reflexivity.
  - rewrite map_length, R3. unfold D. pose proof (deg_ord_length a b ltac:(lia)). nia.
  - intros j i Hj Hi. rewrite map_length, R3 in Hj. exact (R4 j i Hj Hi).
Qed.

Lemma mapM_Forall2 {A B} (f : A -> result B) l ys : mapM f l = Ok ys -> Forall2 (fun x y => f x = Ok y) l ys.
Proof.
  revert ys. induction l as [|x l IH]; intros ys E; cbn [mapM] in E; [injection E as <-; constructor|].
  destruct (f x) as [y|] eqn:Ef; [|discriminate]. cbn [bind] in E. destruct (mapM f l) as [ys'|] eqn:Em; [|discriminate]. cbn [bind] in E.
  injection E as <-. constructor; [exact Ef|apply IH; reflexivity].
Qed.
Lemma mapM_total {A B} (f : A -> result B) l : (forall x, In x l -> exists y, f x = Ok y) -> exists ys, mapM f l = Ok ys.
Proof.
  induction l as [|x l IH]; intros H; [exists []; reflexivity|]. destruct (H x (or_introl eq_refl)) as [y Ey].
  destruct IH as [ys Eys]; [intros z Hz; apply H; right; exact Hz|]. exists (y :: ys). cbn [mapM]. rewrite Ey. cbn [bind]. rewrite Eys. reflexivity.
Qed.
Lemma Forall2_comp {A B C} (P : A -> B -> Prop) (Q : B -> C -> Prop) l m n :
  Forall2 P l m -> Forall2 Q m n -> Forall2 (fun x z => exists y, P x y /\ Q y z) l n.
Proof. intros H. revert n. induction H as [|x y l m H _ IH]; intros n H2; inversion H2; subst; constructor; [exists y; split; assumption|apply IH; assumption]. Qed.

Lemma write_shc_err c l lp nmin nmax rows cols first at_ e t e' :
  mapM (fun t => mjd_to_dyear t (Some lp)) l = Err e ->
  write_shc c (TVec l) lp nmin nmax rows cols first at_ = (t, e') -> e' <> None.
Proof.
  intros Em E. unfold write_shc in E. rewrite !emit_ok in E.
  set (f := fun (w : writer) (t : Q) => match mjd_to_dyear t (Some lp) with Err e => raise_ w e | Ok y => emit w (txt " " ++ fmt_q y)%list end) in *.
  assert (ST : forall l o e, fold_left f l (o, Some e) = (o, Some e)).
  { clear. induction l as [|t l IH]; intros o e; [reflexivity|]. cbn [fold_left]. unfold f at 2. destruct (mjd_to_dyear t _); apply IH. }
  assert (W : forall l o e, mapM (fun t => mjd_to_dyear t (Some lp)) l = Err e -> exists o' e', fold_left f l (o, None) = (o', Some e')).
  { clear - ST. induction l as [|t l IH]; intros o e Ee; [discriminate|]. cbn [mapM] in Ee. cbn [fold_left]. unfold f at 2.
    destruct (mjd_to_dyear t (Some lp)) as [y|e0].
    - cbn [bind] in Ee. rewrite emit_ok. destruct (mapM _ l) as [ys|e0] eqn:Em; [discriminate|]. exact (IH _ e0 eq_refl).
    - cbn [raise_]. rewrite ST. eexists. eexists. reflexivity. }
  match type of E with context [fold_left f l ?x] => 
    assert (Ew' : exists o' e1, fold_left f l x = (o', Some e1)) by exact (W l (([] ++ c) ++ txt "  ")%list e Em) end.
  destruct Ew' as (o' & e1 & Ew). rewrite Ew, emit_err in E.
  set (g := fun '(row, w) '(n, m) => _) in E.
  assert (SG : forall D k o e, snd (snd (fold_left g D (k, (o, Some e)))) = Some e).
  { clear. induction D as [|[n m] D IH]; intros k o e; [reflexivity|]. cbn [fold_left]. unfold g at 2.
    rewrite emit_err. destruct (_ <? _)%nat; [rewrite !emit_err|cbn [raise_]; rewrite emit_err]; apply IH. }
  match type of E with ?x = _ => assert (S : snd x = Some e1) by exact (SG (deg_ord nmin nmax) 0%nat o' e1) end.
  rewrite E in S. cbn [snd] in S. subst e'. discriminate.
Qed.

Lemma C47 now fs l coeffs order path nmin nmax lp header fs' a b :
  save_shcfile now fs (TVec l) coeffs order path nmin nmax lp header = (fs', Ok tt) ->
  (match nmin with None => 1%Z | Some n => n end) = Z.of_nat a ->
  (match nmax with None => (Z.sqrt (Z.of_nat (c_cols coeffs) + 1) - 1)%Z | Some n => n end) = Z.of_nat b ->
  (1 <= a)%nat -> ((b + 1) * (b + 1) - 1 <= c_cols coeffs)%nat ->
  (if c_one_dim coeffs then 1%nat else c_rows coeffs) = List.length l ->
  (match header with None => True | Some h => comment_lines h end) -> ~ In "010"%char now ->
  let flag := Some (match lp with None => true | Some f => f end) in
  exists text, fs' (match path with None => "model.shc"%string | Some p => p end) = Some text /\
  ((exists s, load_shcfile text flag None = Ok s /\
    l_params s = [Z.of_nat a; Z.of_nat b; Z.of_nat (List.length l); match order with None => 1%Z | Some o => o end; (match order with None => 1 | Some o => o end - 1)%Z] /\
    Forall2 (fun t t' => exists y q, mjd_to_dyear t flag = Ok y /\ eight_decimals y q /\ dyear_to_mjd q flag = Ok t') l (l_time s) /\
    List.length (l_rows s) = ((b + 1) * (b + 1) - a * a)%nat /\
    forall j i, (j < List.length (l_rows s))%nat -> (i < List.length l)%nat ->
      exists row, nth_error (l_rows s) j = Some row /\ List.length row = List.length l /\ eight_decimals (c_at coeffs i (a * a - 1 + j)%nat) (nth i row 0%Q)) \/
   (exists t y q e, In t l /\ mjd_to_dyear t flag = Ok y /\ eight_decimals y q /\ dyear_to_mjd q flag = Err e)).
Proof.
  intros E Ha Hb H1 Hc Hr Hh Hn flag.
  assert (Hab : (1 <= a <= b)%nat).
  { split; [exact H1|]. unfold save_shcfile in E. rewrite Ha, Hb in E. destruct (Z.ltb_spec (Z.of_nat b) (Z.of_nat a)); [discriminate|]. lia. }
  assert (HY : exists ys, mapM (fun t => mjd_to_dyear t flag) l = Ok ys).
  { destruct (mapM (fun t => mjd_to_dyear t flag) l) as [ys|e] eqn:Em; [eexists; reflexivity|]. exfalso.
    unfold save_shcfile in E. rewrite Ha, Hb in E. destruct (Z.ltb_spec (Z.of_nat b) (Z.of_nat a)); [discriminate|].
    destruct (Z.ltb_spec (Z.of_nat a) 0); [lia|].
    match type of E with (let '(_, _) := ?W in _) = _ => destruct W as [t0 e0] eqn:EW end.
    pose proof (write_shc_err _ _ _ _ _ _ _ _ _ _ _ _ Em EW) as NE. destruct e0; [discriminate|contradiction]. }
  destruct HY as [ys HY].
  rewrite (save_ok now fs l coeffs order path nmin nmax lp header ys a b Ha Hb Hab Hc HY) in E. injection E as <-.
  eexists. split; [unfold write_file; unfold orelse; rewrite String.eqb_refl; reflexivity|].
  assert (CH : comment_lines (orelse header [])) by (destruct header; [exact Hh|exists []; split; [reflexivity|constructor]]).
  pose proof (mapM_Forall2 _ _ _ HY) as FY. pose proof (Forall2_length _ _ _ FY) as LY.
  rewrite Hr.
  destruct (load_content (orelse header []) now (orelse lp true) a b (orelse order 1%Z) ys (List.length l) (a * a - 1) (c_at coeffs) CH Hn Hab (eq_sym LY))
    as (times & tab & T & L & LT & V).
  change (Some (orelse lp true)) with flag in L.
  destruct (mapM (fun t => dyear_to_mjd t flag) times) as [mjd|e] eqn:EM.
  - left. eexists. split; [exact L|]. cbn [l_params l_time l_rows]. split; [reflexivity|]. split; [|split; [exact LT|exact V]].
    pose proof (mapM_Forall2 _ _ _ EM) as FM.
    pose proof (Forall2_comp _ _ _ _ _ FY (Forall2_comp _ _ _ _ _ T FM)) as FF.
    eapply Forall2_impl; [|exact FF]. cbn. intros t t' (y & Hy & q & Hq & Ht). exists y, q. tauto.
  - right. cbn [bind] in L.
    assert (X : exists q e', In q times /\ dyear_to_mjd q flag = Err e').
    { clear -EM. revert e EM. induction times as [|q times IH]; intros e EM; [discriminate|]. cbn [mapM] in EM.
      destruct (dyear_to_mjd q flag) as [z|e'] eqn:Eq; [|exists q, e'; split; [left; reflexivity|exact Eq]].
      cbn [bind] in EM. destruct (mapM _ times) as [zs|e'] eqn:Em; [discriminate|]. destruct (IH e' eq_refl) as (q' & e'' & Hq & He).
      exists q', e''. split; [right; exact Hq|exact He]. }
    destruct X as (q & e' & Hq & He).
    assert (Y : exists t y, In t l /\ mjd_to_dyear t flag = Ok y /\ eight_decimals y q).
    { clear -FY T Hq. revert l FY. induction T as [|y q' ys times Hyq T IH]; intros l FY; [contradiction|].
      inversion FY; subst. destruct Hq as [ -> |Hq]; [eexists; eexists; split; [left; reflexivity|split; eassumption]|].
      destruct (IH Hq _ H3) as (t & y' & Ht & Hy). exists t, y'. split; [right; exact Ht|exact Hy]. }
    destruct Y as (t & y & Ht & Hy & Hq'). exists t, y, q, e'. tauto.
Qed.
