(** The IGRF table. *)
From Coq Require Import Reals QArith Qreals List Arith ZArith String Ascii Bool Lia Lra.
From Verif Require Import M_Prelude M_Time M_ND M_Text M_SHC Spec_Calendar Spec_Field Spec_Spline Spec_PP Spec_Loaders M_Spectrum M_Spline M_PP M_Model M_FromSpline M_Loaders
  P_Text P_Time2 P_SHC P_SHC2 P_Spectrum P_Spectrum2 P_Spectrum3 P_Spline P_Spline2 P_Spline3 P_Spline4 P_PP P_PP2 P_Loaders P_Loaders2.
Import ListNotations.
Open Scope R_scope.

(** ** Text *)
Lemma lstrip_split l : exists s, Forall (fun c => is_space c = true) s /\ l = (s ++ lstrip l)%list.
Proof.
  induction l as [|c l (s & H & E)]; [exists []; split; [constructor|reflexivity]|]. cbn [lstrip]. destruct (is_space c) eqn:C.
  - exists (c :: s). split; [constructor; assumption|]. cbn [app]. f_equal. exact E.
  - exists []. split; [constructor|reflexivity].
Qed.
Lemma lstrip_app s c r : Forall (fun c => is_space c = true) s -> is_space c = false -> lstrip (s ++ c :: r) = c :: r.
Proof. intros H C. induction H as [|x s Hx _ IH]; cbn [app lstrip]; [rewrite C; reflexivity|]. rewrite Hx. exact IH. Qed.
Lemma prefix_spec p l : prefix p l = true <-> exists r, l = (p ++ r)%list.
Proof.
  revert l. induction p as [|a p IH]; intros l; [split; [exists l; reflexivity|reflexivity]|].
  destruct l as [|b l]; cbn [prefix]; [split; [discriminate|intros [r E]; discriminate]|].
  rewrite andb_true_iff, IH. split.
  - intros [H [r ->]]. apply Ascii.eqb_eq in H. subst. exists r. reflexivity.
  - intros [r E]. injection E as -> ->. split; [apply Ascii.eqb_refl|exists r; reflexivity].
Qed.
Lemma comment_spec l : (prefix (txt "#") (lstrip l) || prefix (txt "c/s") (lstrip l))%bool = true <-> comment_line l.
Proof.
  rewrite orb_true_iff, !prefix_spec. split.
  - destruct (lstrip_split l) as (s & H & E). intros [[r R]|[r R]]; exists s, r; (split; [exact H|]); rewrite R in E; tauto.
  - intros (s & r & H & [ -> | -> ]); [left|right]; exists r; change (txt "#" ++ r)%list with ("#"%char :: r); change (txt "c/s" ++ r)%list with ("c" :: "/" :: "s" :: r)%char;
      apply lstrip_app; try assumption; reflexivity.
Qed.
Lemma mapM_float ws qs : Forall2 number ws qs -> mapM to_float ws = Ok qs.
Proof. induction 1 as [|w q ws qs H _ IH]; [reflexivity|]. cbn [mapM]. replace (to_float w) with (@Ok Q q) by (unfold to_float; rewrite H; reflexivity). cbn [bind]. rewrite IH. reflexivity. Qed.

Definition row_line (n : nat) (line : text) (row : list Q) : Prop :=
  exists a b c ws, words line = a :: b :: c :: ws /\ Forall2 number ws row /\ List.length row = S n.

Lemma fold_rows n b : forall ls body, without_comments ls body -> forall table data, Forall2 (row_line n) body table ->
  fold_left igrf_line ls (Ok (Some b, data)) = Ok (Some b, (data ++ List.concat table)%list).
Proof.
  induction 1 as [|l ls cs C W IH|l ls cs C W IH]; intros table data F.
  - inversion F; subst. cbn. rewrite app_nil_r. reflexivity.
  - cbn [fold_left]. unfold igrf_line at 2. cbn [bind]. rewrite (proj2 (comment_spec l) C). apply IH, F.
  - inversion F as [|? row ? tab (a & b' & c & ws & E & FN & _) F']; subst. cbn [fold_left]. unfold igrf_line at 2. cbn [bind].
    destruct (prefix (txt "#") (lstrip l) || prefix (txt "c/s") (lstrip l))%bool eqn:P; [apply comment_spec in P; contradiction|].
    rewrite E. cbn [skipn]. rewrite (mapM_float _ _ FN). cbn [bind]. rewrite (IH tab _ F'). cbn [List.concat]. rewrite app_assoc. reflexivity.
Qed.
Lemma fold_header n ls header body : without_comments ls (header :: body) -> forall epochs table a b c ws sv,
  words header = a :: b :: c :: (ws ++ [sv])%list -> Forall2 number ws epochs -> epochs <> [] -> Forall2 (row_line n) body table ->
  fold_left igrf_line ls (Ok (None, [])) = Ok (Some (igrf_epochs epochs), List.concat table).
Proof.
  intros W. remember (header :: body) as cs eqn:Ecs. revert header body Ecs.
  induction W as [|l ls cs C W IH|l ls cs C W IH]; intros header body Ecs epochs table a b c ws sv E FN NE F; [discriminate| |].
  - cbn [fold_left]. unfold igrf_line at 2. cbn [bind]. rewrite (proj2 (comment_spec l) C). exact (IH _ _ Ecs _ _ _ _ _ _ _ E FN NE F).
  - injection Ecs as -> ->. cbn [fold_left]. unfold igrf_line at 2. cbn [bind].
    destruct (prefix (txt "#") (lstrip header) || prefix (txt "c/s") (lstrip header))%bool eqn:P; [apply comment_spec in P; contradiction|].
    rewrite E. cbn [skipn]. rewrite removelast_last, (mapM_float _ _ FN). cbn [bind]. destruct epochs as [|e0 epochs]; [contradiction|].
    rewrite (fold_rows n _ _ _ W table [] F). unfold igrf_epochs. 
    replace (last (e0 :: epochs) e0) with (last (e0 :: epochs) 0%Q); [reflexivity|].
    clear. revert e0. assert (H : forall l e a b, last (e :: l) a = last (e :: l) b :> Q) by (induction l as [|x l IH]; intros; [reflexivity|apply IH]). intros e0. apply H.
Qed.

(** ** Table *)
Lemma nth_concat {A} (d : A) n table : Forall (fun row => List.length row = n) table -> forall r i, (r < List.length table)%nat -> (i < n)%nat ->
  nth (r * n + i) (List.concat table) d = nth i (nth r table []) d.
Proof.
  induction 1 as [|row table H _ IH]; intros r i Hr Hi; [cbn in Hr; lia|]. cbn [List.concat]. destruct r as [|r].
  - cbn [Nat.mul Nat.add nth]. apply app_nth1. lia.
  - cbn [nth]. rewrite app_nth2 by (cbn [Nat.mul]; lia). rewrite <- (IH r i) by (cbn in Hr; lia). f_equal. cbn [Nat.mul]. lia.
Qed.
Lemma length_concat {A} n (table : list (list A)) : Forall (fun row => List.length row = n) table -> List.length (List.concat table) = (List.length table * n)%nat.
Proof. induction 1 as [|row table H _ IH]; [reflexivity|]. cbn [List.concat List.length]. rewrite app_length, IH, H. lia. Qed.

(** ** Splines of order two *)
Lemma spline_two b t c x p : good_breaks b -> augment_breaks b 2 = Ok t -> in_interval b p x ->
  spline t 1 c (List.length t - 2) x = line_through (nth p b 0) (c p) (nth (p + 1) b 0) (c (p + 1)%nat) x.
Proof.
  intros G Ea I. change 2%Z with (Z.of_nat 2) in Ea. pose proof (len_t b 2 t G ltac:(lia) Ea) as L. pose proof I as (IL & _).
  assert (GP : nth p b 0 < nth (p + 1) b 0) by (apply (proj2 G); exact IL).
  pose proof (knot_b b 2 t G ltac:(lia) Ea p ltac:(lia)) as K0. pose proof (knot_b b 2 t G ltac:(lia) Ea (p + 1)%nat ltac:(lia)) as K1.
  unfold knot in K0, K1. cbn [Nat.sub] in K0, K1.
  unfold spline. change (fold_right Rplus 0 ?l) with (Rsum l).
  rewrite (Rsum_seq_ext _ (fun i => (if (i =? p + 1)%nat then 1 else 0) * (c i * ratio (x - nth i t 0) (nth (i + 0 + 1) t 0 - nth i t 0)) +
     (if (i =? p)%nat then 1 else 0) * (c i * ratio (nth (i + 0 + 2) t 0 - x) (nth (i + 0 + 2) t 0 - nth (i + 1) t 0)))).
  - rewrite P_Spline.Rsum_plus.
    rewrite (Rsum_single (fun i => c i * ratio (x - nth i t 0) (nth (i + 0 + 1) t 0 - nth i t 0))) by lia.
    rewrite (Rsum_single (fun i => c i * ratio (nth (i + 0 + 2) t 0 - x) (nth (i + 0 + 2) t 0 - nth (i + 1) t 0))) by lia.
    replace (p + 1 + 0 + 1)%nat with (1 + (p + 1))%nat by lia. replace (p + 0 + 2)%nat with (1 + (p + 1))%nat by lia.
    replace (nth (p + 1) t 0) with (nth (1 + p) t 0) by (f_equal; lia). rewrite K0, K1.
    unfold ratio, line_through. destruct (Req_EM_T (nth (p + 1) b 0 - nth p b 0) 0); [lra|]. field. lra.
  - intros i Hi. cbn [bspline]. rewrite (indicator_aug b 2 t G ltac:(lia) Ea p x i I ltac:(lia)), (indicator_aug b 2 t G ltac:(lia) Ea p x (i + 1) I ltac:(lia)).
    cbn [Nat.sub]. replace (i =? 1 + p)%nat with (i =? p + 1)%nat by (f_equal; lia). replace (i + 1 =? 1 + p)%nat with (i =? p)%nat by (destruct (Nat.eqb_spec i p); destruct (Nat.eqb_spec (i + 1) (1 + p)); lia).
    ring.
Qed.
Lemma line_start t0 v0 t1 v1 : line_through t0 v0 t1 v1 t0 = v0.
Proof. unfold line_through. unfold Rdiv. ring. Qed.
Lemma line_end t0 v0 t1 v1 : t0 < t1 -> line_through t0 v0 t1 v1 t1 = v1.
Proof. intros H. unfold line_through. field. lra. Qed.
Lemma spline_two_closed b t c x i : good_breaks b -> augment_breaks b 2 = Ok t -> (i + 1 < List.length b)%nat -> nth i b 0 <= x <= nth (i + 1) b 0 ->
  spline t 1 c (List.length t - 2) x = line_through (nth i b 0) (c i) (nth (i + 1) b 0) (c (i + 1)%nat) x.
Proof.
  intros G Ea Hi Hx. pose proof (proj2 G i Hi) as GI.
  destruct (Rlt_dec x (nth (i + 1) b 0)) as [H|H]; [apply spline_two; [exact G|exact Ea|split; [exact Hi|]; split; [lra|left; exact H]]|].
  assert (X : x = nth (i + 1) b 0) by lra. destruct (Nat.eq_dec (i + 2) (List.length b)) as [E|E].
  - apply spline_two; [exact G|exact Ea|]. split; [exact Hi|]. split; [lra|right; split; [exact E|exact X]].
  - rewrite X, line_end by exact GI. rewrite (spline_two b t c _ (i + 1) G Ea).
    + apply line_start.
    + split; [lia|]. split; [lra|left]. apply (proj2 G). lia.
Qed.

(** ** Epochs *)
Definition epoch_ok (y : Q) : Prop := (1708 <= y)%Q /\ (y < 2293)%Q.
Lemma igrf_epochs_ok epochs : epochs <> [] -> Forall (fun y => (1708 <= y)%Q /\ (y < 2288)%Q) epochs -> Forall epoch_ok (igrf_epochs epochs).
Proof.
  intros NE F. unfold igrf_epochs. apply Forall_app. rewrite Forall_forall in F. split.
  - apply Forall_forall. intros y Hy. specialize (F y Hy). unfold epoch_ok. split; [tauto|]. apply (Qlt_trans _ 2288); [tauto|reflexivity].
  - apply Forall_cons; [|constructor].
    assert (In (last epochs 0%Q) epochs).
    { destruct epochs as [|e l]; [contradiction|]. pose proof (@app_removelast_last Q (e :: l) 0%Q ltac:(discriminate)) as AL. rewrite AL at 2. apply in_or_app. right. left. reflexivity. }
    destruct (F _ H) as [F1 F2]. split.
    + apply (Qle_trans _ (last epochs 0%Q)); [exact F1|]. rewrite <- (Qplus_0_r (last epochs 0%Q)) at 1. apply Qplus_le_r. discriminate.
    + setoid_replace 2293%Q with (2288 + 5)%Q by reflexivity. apply Qplus_lt_l. exact F2.
Qed.
Lemma igrf_epochs_length epochs : List.length (igrf_epochs epochs) = S (List.length epochs).
Proof. unfold igrf_epochs. rewrite app_length. cbn. lia. Qed.
Lemma last_nth_Q (l : list Q) : l <> [] -> last l 0%Q = nth (List.length l - 1) l 0%Q.
Proof.
  induction l as [|y c IH]; intros Hc; [contradiction|]. destruct c as [|z c]; [reflexivity|].
  change (last (z :: c) 0%Q = nth (List.length (y :: z :: c) - 1) (y :: z :: c) 0%Q). rewrite IH by discriminate. cbn. rewrite Nat.sub_0_r. reflexivity.
Qed.
Lemma igrf_epochs_increasing epochs : epochs <> [] -> increasing epochs -> increasing (igrf_epochs epochs).
Proof.
  intros NE I i Hi. rewrite igrf_epochs_length in Hi. assert (L : (0 < List.length epochs)%nat) by (destruct epochs; [contradiction|cbn; lia]).
  unfold igrf_epochs. destruct (Nat.eq_dec (i + 1) (List.length epochs)) as [E|E].
  - rewrite (app_nth1 epochs _ 0%Q (n := i)) by lia. rewrite (app_nth2 epochs _ 0%Q (n := (i + 1)%nat)) by lia. replace (i + 1 - List.length epochs)%nat with 0%nat by lia. cbn [nth].
    rewrite (last_nth_Q _ NE). replace (List.length epochs - 1)%nat with i by lia.
    rewrite <- (Qplus_0_r (nth i epochs 0%Q)) at 1. apply Qplus_lt_r. reflexivity.
  - rewrite !app_nth1 by lia. apply I. lia.
Qed.
Lemma epochs_mjd l : Forall epoch_ok l -> exists m, mapM (fun y => dyear_to_mjd y (Some true)) l = Ok m /\ Forall2 (fun y x => dyear_to_mjd y None = Ok x) l m.
Proof.
  intros F. destruct (mapM_total (fun y => dyear_to_mjd y (Some true)) l) as [m E].
  - intros y Hy. rewrite Forall_forall in F. destruct (F y Hy) as [F1 F2]. destruct (dyear_round_trip y F1 F2) as (x & E & _). exists x. exact E.
  - exists m. split; [exact E|]. exact (mapM_Forall2 _ _ _ E).
Qed.
Lemma Forall2_nth {A B} (P : A -> B -> Prop) a b l m : Forall2 P l m -> forall i, (i < List.length l)%nat -> P (nth i l a) (nth i m b).
Proof. induction 1 as [|x y l m H _ IH]; intros i Hi; [cbn in Hi; lia|]. destruct i as [|i]; [exact H|]. cbn. apply IH. cbn in Hi. lia. Qed.
Lemma epochs_good l m : increasing l -> Forall epoch_ok l -> (2 <= List.length l)%nat -> Forall2 (fun y x => dyear_to_mjd y None = Ok x) l m -> good_breaks (map Q2R m).
Proof.
  intros I F L H. pose proof (P_SHC2.Forall2_length _ _ _ H) as LL. split; [rewrite map_length; lia|]. intros i Hi. rewrite map_length in Hi. rewrite <- !Q2R_nth. apply Qlt_Rlt.
  rewrite Forall_forall in F. specialize (I i ltac:(lia)).
  assert (Q1 : (i < List.length l)%nat) by lia. assert (Q2 : (i + 1 < List.length l)%nat) by lia.
  destruct (F _ (nth_In l 0%Q Q1)) as [A1 _]. destruct (F _ (nth_In l 0%Q Q2)) as [_ A2].
  destruct (dyear_to_mjd_monotone _ _ A1 I A2) as (x1 & x2 & E1 & E2 & LT).
  pose proof (Forall2_nth _ 0%Q 0%Q _ _ H i ltac:(lia)) as N1. pose proof (Forall2_nth _ 0%Q 0%Q _ _ H (i + 1)%nat ltac:(lia)) as N2. cbn beta in N1, N2. congruence.
Qed.

Lemma igrf_loads content epochs table :
  igrf_file content epochs table -> table <> [] -> Forall (fun y => (1708 <= y)%Q /\ (y < 2288)%Q) epochs ->
  exists M, load_IGRF_txtfile content = Ok M /\ m_source M = "internal"%string /\
    (forall n, List.length table = (n * (n + 2))%nat -> m_nmax M = Some (Z.of_nat n)) /\
    forall i t0 t1, (i < List.length epochs)%nat ->
      dyear_to_mjd (nth i (igrf_epochs epochs) 0%Q) None = Ok t0 -> dyear_to_mjd (nth (i + 1) (igrf_epochs epochs) 0%Q) None = Ok t1 ->
      takes_values M (List.length table) (Q2R t0) (Q2R t1) (fun d t =>
        let v := igrf_value (nth d table []) (List.length epochs) in line_through (Q2R t0) (v i) (Q2R t1) (v (i + 1)%nat) t).
Proof.
  intros (header & body & W & (a & b & c & ws & sv & EH & FH) & FB & NE & I) NT FO.
  set (n := List.length epochs) in *. set (E := igrf_epochs epochs). pose proof (igrf_epochs_length epochs) as LE. fold E n in LE.
  pose proof (fold_header n _ _ _ W epochs table _ _ _ _ _ EH FH NE FB) as FL.
  assert (RL : Forall (fun row => List.length row = S n) table).
  { clear - FB. induction FB as [|l row body table (? & ? & ? & ? & _ & _ & H) _ IH]; constructor; assumption. }
  pose proof (length_concat _ _ RL) as LC. fold (row_line n) in FB.
  pose proof (igrf_epochs_ok epochs NE FO) as EO. fold E in EO. pose proof (igrf_epochs_increasing epochs NE I) as EI. fold E in EI.
  assert (Hn : (1 <= n)%nat) by (unfold n; destruct epochs; [contradiction|cbn; lia]).
  assert (HT : (1 <= List.length table)%nat) by (destruct table; [contradiction|cbn; lia]).
  destruct (epochs_mjd E EO) as (m & EM & FM). pose proof (P_SHC2.Forall2_length _ _ _ FM) as LM.
  pose proof (epochs_good E m EI EO ltac:(lia) FM) as G. set (br := map Q2R m) in *.
  assert (LBR : List.length br = S n) by (unfold br; rewrite map_length; lia).
  destruct (augment_breaks br 2) as [t|e] eqn:Ea.
  2:{ exfalso. unfold augment_breaks in Ea. destruct br; [cbn in LBR; lia|discriminate]. }
  pose proof (len_t br 2 t G ltac:(lia) Ea) as LT.
  unfold load_IGRF_txtfile. rewrite FL. cbn [bind]. fold E. rewrite LE, LC, Nat.mod_mul by lia. cbn [Nat.eqb negb]. rewrite Nat.div_mul by lia.
  rewrite EM. cbn [bind]. fold br. rewrite Ea. cbn [bind].
  match goal with |- exists M, from_bspline _ _ ?f _ _ _ = _ /\ _ => set (cf := f) end.
  destruct (model_spline br 2 t (S n) (List.length table) cf (Some "internal"%string) G ltac:(lia) HT Ea ltac:(lia)) as (M & EMM & N1 & N2 & _ & TV).
  exists M. split; [exact EMM|]. split; [exact N2|]. split; [intros k Hk; rewrite N1, Hk; f_equal; apply degree_full|].
  intros i t0 t1 Hi E0 E1 time nn HE. destruct (TV time nn HE) as (r & Er & S1 & S2 & V). exists r. split; [exact Er|]. split; [exact S1|]. split; [exact S2|].
  intros idx d Vi Hd Hx.
  pose proof (Forall2_nth _ 0%Q 0%Q _ _ FM i ltac:(lia)) as M0. pose proof (Forall2_nth _ 0%Q 0%Q _ _ FM (i + 1)%nat ltac:(lia)) as M1. cbn beta in M0, M1.
  rewrite M0 in E0. rewrite M1 in E1. injection E0 as <-. injection E1 as <-.
  rewrite !Q2R_nth in Hx. fold br in Hx.
  assert (CV : forall j, (j < S n)%nat -> cf j d = igrf_value (nth d table []) n j).
  { intros j Hj. unfold cf, igrf_value. rewrite !(nth_concat 0%Q (S n) table RL d) by lia. replace (S n - 1)%nat with n by lia. replace (S n - 2)%nat with (n - 1)%nat by lia.
    destruct (Nat.eqb_spec j n) as [ -> |NJ].
    - destruct (Nat.ltb_spec n n); [lia|]. rewrite Q2R_plus, Q2R_mult. unfold Q2R at 1. cbn. rewrite Rinv_1. ring.
    - destruct (Nat.ltb_spec j n); [reflexivity|lia]. }
  rewrite (V idx d Vi Hd).
  - f_equal. cbn zeta. rewrite <- (CV i), <- (CV (i + 1)%nat) by lia. rewrite !Q2R_nth. fold br. cbn [Nat.sub]. 
    apply (spline_two_closed br t (fun i => cf i d)); [exact G|exact Ea|lia|exact Hx].
  - pose proof (good_mono br G 0 i ltac:(lia)). pose proof (good_mono br G (i + 1)%nat (List.length br - 1)%nat ltac:(lia)). unfold first_break, last_break. lra.
Qed.

(** Whole years: the value on the first of January is the tabulated one. *)
Lemma igrf_january content epochs table : igrf_file content epochs table -> table <> [] -> Forall (fun y => (1708 <= y)%Q /\ (y < 2288)%Q) epochs ->
  exists M, load_IGRF_txtfile content = Ok M /\
    forall i y k, (i < List.length epochs)%nat -> (nth i epochs 0 == inject_Z y)%Q -> day_distance (mkdate 2000 1 1) (mkdate y 1 1) k ->
      takes_values M (List.length table) (IZR k) (IZR k) (fun d _ => Q2R (nth i (nth d table []) 0%Q)).
Proof.
  intros F NT FO. pose proof F as (_ & _ & _ & _ & _ & NE & I).
  destruct (igrf_loads content epochs table F NT FO) as (M & EM & _ & _ & TV). exists M. split; [exact EM|].
  intros i y k Hi Ey D. pose proof (igrf_epochs_ok epochs NE FO) as EO. pose proof (igrf_epochs_length epochs) as LE.
  destruct (epochs_mjd _ EO) as (m & _ & FM). pose proof (P_SHC2.Forall2_length _ _ _ FM) as LM.
  pose proof (epochs_good _ m (igrf_epochs_increasing epochs NE I) EO ltac:(lia) FM) as G.
  pose proof (Forall2_nth _ 0%Q 0%Q _ _ FM i ltac:(lia)) as M0. pose proof (Forall2_nth _ 0%Q 0%Q _ _ FM (i + 1)%nat ltac:(lia)) as M1. cbn beta in M0, M1.
  specialize (TV i _ _ Hi M0 M1).
  assert (EE : nth i (igrf_epochs epochs) 0%Q = nth i epochs 0%Q) by (unfold igrf_epochs; apply app_nth1; exact Hi).
  assert (T0 : Q2R (nth i m 0%Q) = IZR k).
  { rewrite EE in M0. rewrite Forall_forall in FO. destruct (FO (nth i epochs 0%Q) (nth_In _ _ Hi)) as [A1 A2].
    rewrite Ey in A1, A2. change 1708%Q with (inject_Z 1708) in A1. change 2288%Q with (inject_Z 2288) in A2. rewrite <- Zle_Qle in A1. rewrite <- Zlt_Qlt in A2.
    destruct (jan1_dyear y k ltac:(unfold year_ok; lia) D) as (_ & x & Ex & Vx).
    unfold dyear_to_mjd in M0, Ex. rewrite (Qround.Qfloor_comp _ _ Ey) in M0. destruct (mjd2000_ymd (Qround.Qfloor (inject_Z y)) 1 1) as [j|]; [|discriminate].
    injection M0 as M0. injection Ex as Ex. rewrite <- M0. rewrite (Qeq_eqR _ (inject_Z k)); [unfold Q2R; cbn; lra|]. rewrite <- Vx, <- Ex, Ey. reflexivity. }
  intros time nn HE. destruct (TV time nn HE) as (r & Er & S1 & S2 & V). exists r. split; [exact Er|]. split; [exact S1|]. split; [exact S2|].
  intros idx d Vi Hd Hx. rewrite (V idx d Vi Hd).
  - f_equal. cbn zeta. assert (EX : at_ time idx = Q2R (nth i m 0%Q)) by (cbn beta in Hx; lra). rewrite EX, line_start. unfold igrf_value. destruct (Nat.ltb_spec i (List.length epochs)); [reflexivity|lia].
  - pose proof (proj2 G i) as GI. rewrite map_length in GI. specialize (GI ltac:(lia)). rewrite <- !Q2R_nth in GI. lra.
Qed.
