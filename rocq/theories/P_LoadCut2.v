From Coq Require Import Reals QArith Qreals List Arith ZArith String Ascii Bool Lia Lra.
From Verif Require Import M_Prelude M_Time M_ND M_Spectrum M_Spline M_PP M_Model M_Text M_SHC M_FromSpline M_Loaders.
From Verif Require Import Spec_Text Spec_Loaders Spec_LoadErr Spec_LoadCut P_Text P_TextSpec P_Loaders P_Loaders2 P_SHCRead P_Loaders3 P_LoadErr P_LoadCut.
Import ListNotations.
Open Scope nat_scope.

Lemma words_acc_more l2 : forall w, w <> [] -> 1 <= List.length (words_acc w l2).
Proof.
  induction l2 as [|c l IH]; intros w H; cbn [words_acc].
  - destruct w; [congruence|cbn; lia].
  - destruct (is_space c); [destruct w; [congruence|cbn; lia]|]. apply IH. discriminate.
Qed.
Lemma words_acc_le l1 : forall w l2, List.length (words_acc w l1) <= List.length (words_acc w (l1 ++ l2)).
Proof.
  induction l1 as [|c l IH]; intros w l2; cbn [app words_acc].
  - destruct w; [cbn; lia|]. apply words_acc_more. discriminate.
  - destruct (is_space c); [|apply IH]. destruct w; [apply IH|]. cbn [List.length]. specialize (IH [] l2). lia.
Qed.
Lemma wc_app L1 : forall X cs, without_comments (L1 ++ X) cs -> exists cs1 cs2, cs = (cs1 ++ cs2)%list /\ without_comments L1 cs1 /\ without_comments X cs2.
Proof.
  induction L1 as [|l L1 IH]; intros X cs H.
  - exists [], cs. repeat split; [constructor|exact H].
  - cbn [app] in H. inversion H as [|? ? ? C W|? ? ? C W]; subst.
    + destruct (IH _ _ W) as (a & b & -> & A & B). exists a, b. split; [reflexivity|split; [constructor 2; assumption|exact B]].
    + destruct (IH _ _ W) as (a & b & -> & A & B). exists (l :: a), b. split; [reflexivity|split; [constructor 3; assumption|exact B]].
Qed.
Lemma wc_snoc_skip L cs l : without_comments L cs -> comment_line l -> without_comments (L ++ [l]) cs.
Proof. intros H C. induction H; cbn [app]; [constructor; [exact C|constructor]|constructor 2; assumption|constructor 3; assumption]. Qed.
Lemma wc_snoc_keep L cs l : without_comments L cs -> ~ comment_line l -> without_comments (L ++ [l]) (cs ++ [l]).
Proof. intros H C. induction H; cbn [app]; [constructor 3; [exact C|constructor]|constructor 2; assumption|constructor 3; assumption]. Qed.
Lemma comment_dec l : comment_line l \/ ~ comment_line l.
Proof. rewrite <- comment_spec. destruct (_ || _)%bool; [left; reflexivity|right; discriminate]. Qed.

(** the lines of a cut file *)
Lemma cut_lines cut rest : exists L last, lines cut = (L ++ match last with [] => [] | _ => [last] end)%list /\
  (last = [] \/ exists l2 more, lines (cut ++ rest) = (L ++ (last ++ l2) :: more)%list) /\ (exists more, lines (cut ++ rest) = (L ++ more)%list) /\
  (L = [] \/ exists pre post, cut = (pre ++ post)%list /\ lines pre = L).
Proof.
  assert (SP : (~ In newline cut) \/ exists a l1, cut = (a ++ newline :: l1)%list /\ ~ In newline l1).
  { clear. induction cut as [|c cut IH]; [left; intros []|]. destruct IH as [H|(a & l1 & -> & H)].
    - destruct (ascii_dec c newline) as [-> |N]; [right; exists [], cut; split; [reflexivity|exact H]|]. left. intros [K|K]; [congruence|exact (H K)].
    - right. exists (c :: a), l1. split; [reflexivity|exact H]. }
  assert (ONE : forall l, ~ In newline l -> lines l = match l with [] => [] | _ => [l] end).
  { intros l A. destruct l as [|c l]; [reflexivity|]. apply lines_last_line; [apply not_in_one, A|discriminate]. }
  assert (RL : forall l, ~ In newline l -> l <> [] -> exists l2 more, lines (l ++ rest) = ((l ++ l2) :: more)%list).
  { intros l A B. destruct (first_line rest) as [NR|(x & y & -> & NX)].
    - exists rest, []. rewrite ONE by (rewrite in_app_iff; tauto). destruct l; [congruence|reflexivity].
    - exists x, (lines y). apply lines_spec. rewrite app_assoc. apply lines_more; [rewrite in_app_iff; tauto|]. apply lines_spec. reflexivity. }
  destruct SP as [H|(a & l1 & -> & H)].
  - exists [], cut. cbn [app]. split; [apply ONE, H|]. split; [|split; [exists (lines (cut ++ rest)); reflexivity|left; reflexivity]].
    destruct cut as [|c cut]; [left; reflexivity|]. right. apply RL; [exact H|discriminate].
  - exists (lines (a ++ [newline])), l1. rewrite <- app_assoc. cbn [app]. rewrite (lines_split a l1), (lines_split a (l1 ++ rest)), (ONE l1 H). split; [reflexivity|].
    split; [|split; [exists (lines (l1 ++ rest)); reflexivity|right; exists (a ++ [newline])%list, l1; split; [rewrite <- app_assoc; reflexivity|reflexivity]]].
    destruct l1 as [|c l1]; [left; reflexivity|]. right. destruct (RL (c :: l1) H ltac:(discriminate)) as (l2 & more & K). exists l2, more. rewrite K. reflexivity.
Qed.
Lemma igrf_no_rows ls b M : fold_left igrf_line ls (Ok (None, [])) = Ok (b, []) ->
  bind (fold_left igrf_line ls (Ok (None, []))) (fun '(breaks, data) =>
  match breaks with
  | None => Err OtherError
  | Some breaks =>
      let n := List.length breaks in
      if negb (List.length data mod n =? 0)%nat then Err ValueError else
      let dim := (List.length data / n)%nat in
      let entry d i := nth (d * n + i) data 0%Q in
      let coeffs i d := Q2R (if (i =? n - 1)%nat then 5 * entry d (n - 1)%nat + entry d (n - 2)%nat else entry d i)%Q in
      bind (mapM (fun y => dyear_to_mjd y (Some true)) breaks) (fun mjd =>
      bind (augment_breaks (map Q2R mjd) 2) (fun knots =>
      from_bspline n dim coeffs knots 2 (Some "internal"%string)))
  end) = Ok M -> no_coefficients M.
Proof.
  intros -> H. cbn [bind] in H. destruct b as [br|]; [|discriminate]. cbv zeta in H. cbn [List.length] in H.
  destruct (negb _); [discriminate|].
  destruct (mapM _ br) as [m|]; [|discriminate]. cbn [bind] in H. destruct (augment_breaks _ 2) as [t|]; [|discriminate]. cbn [bind] in H.
  unfold from_bspline, pp_from_bspline in H. 
  assert (D0 : 0 / List.length br = 0) by (destruct (List.length br) as [|k]; [reflexivity|apply Nat.div_0_l; lia]). rewrite D0 in H.
  cbn [Nat.ltb Nat.leb andb bind] in H. injection H as <-. reflexivity.
Qed.
Lemma fold_wc_none L : without_comments L [] -> fold_left igrf_line L (Ok (None, [])) = Ok (None, []).
Proof. intros W. exact (fold_no_header L W (None, [])). Qed.
Lemma one_line_data l b d : igrf_line (Ok (None, [])) l = Ok (b, d) -> d = [].
Proof.
  unfold igrf_line. cbn [bind]. destruct (_ || _)%bool; [intros H; injection H; congruence|]. destruct (mapM to_float _) as [[|x q]|]; cbn [bind]; [discriminate| |discriminate].
  intros H; injection H; congruence.
Qed.
Lemma mapM_float_inv ws qs : mapM to_float ws = Ok qs -> Forall2 number ws qs.
Proof.
  revert qs. induction ws as [|w ws IH]; intros qs H.
  - cbn in H. injection H as <-. constructor.
  - cbn [mapM] in H. unfold to_float at 1 in H. destruct (parse_float w) as [q|] eqn:P; [|discriminate]. cbn [bind] in H.
    destruct (mapM to_float ws) as [q'|] eqn:K; [|discriminate]. cbn [bind] in H. injection H as <-. constructor; [exact P|apply IH; reflexivity].
Qed.
(** a line that is no comment but becomes one has at most one word *)
Lemma words_spaces_app s l : List.Forall (fun c => is_space c = true) s -> words (s ++ l) = words l.
Proof. intros H. induction H as [|c s Hc _ IH]; [reflexivity|]. cbn [app]. unfold words in *. cbn [words_acc]. rewrite Hc. exact IH. Qed.
Lemma words_no_space l : List.Forall (fun c => is_space c = false) l -> List.length (words l) <= 1.
Proof. intros H. destruct l as [|c l]; [cbn; lia|]. rewrite words_plain; [cbn; lia|]. split; [discriminate|exact H]. Qed.
Lemma app_cases {A} (a b c d : list A) : (a ++ b)%list = (c ++ d)%list -> (exists x, c = (a ++ x)%list) \/ (exists x, a = (c ++ x)%list /\ d = (x ++ b)%list).
Proof.
  revert c. induction a as [|x a IH]; intros c H; [left; exists c; reflexivity|]. destruct c as [|y c]; [right; exists (x :: a); split; [reflexivity|symmetry; exact H]|].
  cbn [app] in H. injection H as -> H. destruct (IH c H) as [(z & ->)|(z & -> & ->)]; [left; exists z; reflexivity|right; exists z; split; reflexivity].
Qed.
Lemma becomes_comment l l2 : ~ comment_line l -> comment_line (l ++ l2) -> List.length (words l) <= 1.
Proof.
  intros N (s & r & S0 & E0).
  assert (K : forall m, (m = txt "#" \/ m = txt "c/s") -> (l ++ l2)%list = (s ++ m ++ r)%list -> List.length (words l) <= 1).
  { intros m Hm E. destruct (app_cases _ _ _ _ E) as [(x & ->)|(x & -> & E2)].
    - (* only white space *)
      rewrite <- (app_nil_r l). apply Forall_app in S0. rewrite words_spaces_app by apply S0. cbn. lia.
    - rewrite words_spaces_app by exact S0. destruct (app_cases _ _ _ _ E2) as [(y & ->)|(y & Ey & _)].
      + exfalso. apply N. exists s, y. split; [exact S0|]. destruct Hm as [-> | ->]; [left|right]; reflexivity.
      + apply words_no_space. assert (F : List.Forall (fun c => is_space c = false) m) by (destruct Hm as [-> | ->]; repeat constructor).
        rewrite Ey in F. apply Forall_app in F. apply F. }
  destruct E0 as [E0|E0]; (eapply K; [|exact E0]); auto.
Qed.
Lemma Forall2_app_left {A B} (P : A -> B -> Prop) l1 l2 m : Forall2 P (l1 ++ l2) m -> exists m1 m2, m = (m1 ++ m2)%list /\ Forall2 P l1 m1 /\ Forall2 P l2 m2.
Proof. intros H. apply Forall2_app_inv_l in H. destruct H as (m1 & m2 & A1 & A2 & ->). exists m1, m2. auto. Qed.

Lemma F2len {A B} {P : A -> B -> Prop} {l m} (H : Forall2 P l m) : List.length l = List.length m.
Proof. induction H; cbn; congruence. Qed.
Lemma fold_cat (A0 B0 : list text) st : fold_left igrf_line (A0 ++ B0) st = fold_left igrf_line B0 (fold_left igrf_line A0 st).
Proof. apply fold_left_app. Qed.
Theorem igrf_cut content cut epochs table M : igrf_file content epochs table -> cut_off cut content -> load_IGRF_txtfile cut = Ok M ->
  no_coefficients M \/
  exists cut0 more table', cut = (cut0 ++ more)%list /\ igrf_file cut0 epochs table' /\ first_rows table' table /\ load_IGRF_txtfile cut0 = Ok M.
Proof.
  intros (header & body & W & (a & b & c & ws & sv & EH & FH) & FB & NE & I) (tail & NT & ->) S0.
  destruct (cut_lines cut tail) as (L & l & EC & EL & (mo & EM) & EP).
  rewrite EM in W. destruct (wc_app _ _ _ W) as (cs1 & cs2 & ECS & W1 & W2).
  destruct cs1 as [|h body1].
  - (* the header line is not complete *)
    left. pose proof S0 as S1. unfold load_IGRF_txtfile in S1. assert (EF : fold_left igrf_line (lines cut) (Ok (None, [])) = fold_left igrf_line (match l with [] => [] | _ => [l] end) (Ok (None, [])))
      by (rewrite EC; etransitivity; [apply fold_cat|]; f_equal; exact (fold_wc_none L W1)).
    rewrite EF in S1.
    assert (FD : exists b0, fold_left igrf_line (match l with [] => [] | _ => [l] end) (Ok (None, [])) = Ok (b0, [])).
    { destruct l as [|x l]; [exists None; reflexivity|]. cbn [fold_left] in *. destruct (igrf_line (Ok (None, [])) (x :: l)) as [[b0 d0]|e] eqn:K; [|discriminate].
      rewrite (one_line_data _ _ _ K). exists b0. reflexivity. }
    destruct FD as (b0 & FD). apply (igrf_no_rows (match l with [] => [] | _ => [l] end) b0 M FD). exact S1.
  - cbn [app] in ECS. injection ECS as <- ->. destruct (Forall2_app_left _ _ _ _ FB) as (table1 & table2 & -> & FB1 & FB2).
    set (n := List.length epochs) in *.
    assert (FL : fold_left igrf_line L (Ok (None, [])) = Ok (Some (igrf_epochs epochs), List.concat table1)).
    { exact (fold_header n L header body1 W1 epochs table1 a b c ws sv EH FH NE FB1). }
    assert (HR : forall X t', t' <> [] -> without_comments (lines X) (header :: body1) -> t' = table1 -> igrf_file X epochs t').
    { intros X t' _ WX ->. exists header, body1. split; [exact WX|]. split; [exists a, b, c, ws, sv; split; assumption|]. split; [exact FB1|]. split; assumption. }
    assert (RL : List.Forall (fun row => List.length row = S n) table1).
    { clear - FB1. induction FB1 as [|? ? ? ? (? & ? & ? & ? & _ & _ & H) _ IH]; constructor; assumption. }
    pose proof (length_concat _ _ RL) as LC.
    assert (FR : table1 <> [] -> first_rows table1 (table1 ++ table2)).
    { intros NZ. destruct (exists_last NZ) as (rows & row & ->). exists rows, row, row, table2. split; [rewrite <- app_assoc; reflexivity|]. split; [reflexivity|]. split; reflexivity. }
    assert (Z1 : forall M', fold_left igrf_line (lines cut) (Ok (None, [])) = Ok (Some (igrf_epochs epochs), []) -> load_IGRF_txtfile cut = Ok M' -> no_coefficients M').
    { intros M' FZ H. apply (igrf_no_rows (lines cut) _ M' FZ). exact H. }
    assert (DONE : fold_left igrf_line (lines cut) (Ok (None, [])) = Ok (Some (igrf_epochs epochs), List.concat table1) ->
      no_coefficients M \/ exists cut0 more table', cut = (cut0 ++ more)%list /\ igrf_file cut0 epochs table' /\ first_rows table' (table1 ++ table2) /\ load_IGRF_txtfile cut0 = Ok M).
    { intros FC. destruct table1 as [|r0 t1] eqn:ET; [left; apply Z1; [exact FC|exact S0]|]. rewrite <- ET in *.
      right. destruct EP as [-> |(pre & post & -> & LP)]; [inversion W1|]. exists pre, post, table1. split; [reflexivity|].
      split; [apply HR; [rewrite ET; discriminate|rewrite LP; exact W1|reflexivity]|]. split; [apply FR; rewrite ET; discriminate|].
      unfold load_IGRF_txtfile in *. rewrite LP, FL. rewrite FC in S0. exact S0. }
    destruct l as [|x l0] eqn:El.
    { apply DONE. rewrite EC, app_nil_r. exact FL. }
    rewrite <- El in *. destruct EL as [K|(l2 & more & EL)]; [rewrite El in K; discriminate|]. replace (match l with [] => [] | _ => [l] end) with [l] in EC by (rewrite El; reflexivity).
    destruct (comment_dec l) as [CL|NCL].
    { apply DONE. rewrite EC, fold_cat, FL. cbn [fold_left]. unfold igrf_line. cbn [bind]. rewrite (proj2 (comment_spec l) CL). reflexivity. }
    assert (STEP : fold_left igrf_line (lines cut) (Ok (None, [])) =
      bind (mapM to_float (skipn 3 (words l))) (fun nl => Ok (Some (igrf_epochs epochs), (List.concat table1 ++ nl)%list))).
    { rewrite EC, fold_cat, FL. cbn [fold_left]. unfold igrf_line. cbn [bind].
      destruct (_ || _)%bool eqn:Q1; [exfalso; apply NCL, comment_spec, Q1|]. reflexivity. }
    destruct (mapM to_float (skipn 3 (words l))) as [nl|] eqn:MN; cbn [bind] in STEP.
    2:{ unfold load_IGRF_txtfile in S0. rewrite STEP in S0. discriminate. }
    destruct nl as [|q nl0] eqn:En.
    { apply DONE. rewrite STEP, app_nil_r. reflexivity. }
    rewrite <- En in *. pose proof (mapM_float_inv _ _ MN) as FN. pose proof (F2len FN) as LN.
    assert (NL1 : 1 <= List.length nl) by (rewrite En; cbn; lia). rewrite skipn_length in LN.
    (* the whole line is a row *)
    assert (EQ : mo = ((l ++ l2) :: more)%list). { rewrite EM in EL. apply app_inv_head in EL. exact EL. }
    rewrite EQ in W2. inversion W2 as [|? ? ? CC WW|? ? cs2' CC WW]; subst.
    { exfalso. pose proof (becomes_comment _ _ NCL CC). lia. }
    inversion FB2 as [|? row ? table2' (a' & b' & c' & ws' & EW & FW & LW) FB3]; subst.
    assert (LEW : List.length (words (x :: l0)) <= List.length (words ((x :: l0) ++ l2))) by apply words_acc_le.
    cbn [app] in *. rewrite EW in LEW. cbn [List.length] in LEW. pose proof (F2len FW) as LFW.
    assert (CNT : List.length (q :: nl0) = S n).
    { unfold load_IGRF_txtfile in S0. rewrite STEP in S0. cbn [bind] in S0. cbv zeta in S0. rewrite igrf_epochs_length in S0. fold n in S0.
      destruct (Nat.eqb_spec (List.length (List.concat table1 ++ q :: nl0) mod S n) 0) as [Z0|Z0]; [|discriminate S0].
      rewrite app_length, LC in Z0. rewrite Nat.add_comm, Nat.mod_add in Z0 by lia.
      destruct (Nat.eq_dec (List.length (q :: nl0)) (S n)) as [X|X]; [exact X|exfalso].
      rewrite Nat.mod_small in Z0 by lia. lia. }
    right. exists cut, [], (table1 ++ [q :: nl0])%list. split; [symmetry; apply app_nil_r|]. split; [|split; [|exact S0]].
    + exists header, (body1 ++ [x :: l0])%list. split; [rewrite EC; apply (wc_snoc_keep L (header :: body1)); assumption|].
      split; [exists a, b, c, ws, sv; split; assumption|]. split; [|split; assumption]. apply Forall2_app; [exact FB1|]. constructor; [|constructor].
      destruct (words (x :: l0)) as [|w1 [|w2 [|w3 wr]]] eqn:EWL; cbn [List.length] in LN; try lia.
      exists w1, w2, w3, wr. split; [reflexivity|]. cbn [skipn] in FN. split; [exact FN|]. exact CNT.
    + exists table1, row, (q :: nl0), table2'. split; [reflexivity|]. split; [reflexivity|]. split; [rewrite CNT, LW; reflexivity|].
      destruct (words_cut (x :: l0) [] l2) as (p & e & mw & A1 & A2 & A3). change (words (x :: l0) = (p ++ e)%list) in A1. change (words (x :: l0 ++ l2) = (p ++ mw)%list) in A3.
      (* the last words may differ *)
      assert (LWW : List.length (words (x :: l0)) = List.length (words (x :: l0 ++ l2))). { rewrite EW. cbn [List.length]. cbn [List.length] in *. lia. }
      rewrite A1, A3 in LWW. rewrite !app_length in LWW.
      assert (FN' : Forall2 number (skipn 3 (p ++ e)) (q :: nl0)) by (rewrite <- A1; exact FN).
      assert (FW' : Forall2 number (skipn 3 (p ++ mw)) row) by (rewrite <- A3, EW; exact FW).
      assert (P3 : 3 <= List.length p). { apply (f_equal (@List.length text)) in A1. rewrite app_length in A1. lia. }
      rewrite skipn_app in FN', FW'. replace (3 - List.length p) with 0 in FN', FW' by lia. cbn [skipn] in FN', FW'.
      destruct (Forall2_app_left _ _ _ _ FN') as (u1 & u2 & -> & U1 & U2). destruct (Forall2_app_left _ _ _ _ FW') as (v1 & v2 & -> & V1 & V2).
      assert (UV : u1 = v1). { clear - U1 V1. revert v1 V1. induction U1; intros v1 V1; inversion V1; subst; [reflexivity|]. unfold number in *. f_equal; [congruence|auto]. }
      subst v1. pose proof (F2len U2). pose proof (F2len V2).
      destruct u2 as [|u [|u' u2]]; cbn [List.length] in *; [|destruct v2 as [|v [|v' v2]]; cbn [List.length] in *; [lia| |lia]; rewrite !removelast_last; reflexivity|lia].
      destruct v2; [reflexivity|cbn [List.length] in *; lia].
Qed.
