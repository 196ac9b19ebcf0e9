From Coq Require Import Reals QArith Qreals List Arith ZArith String Ascii Bool Lia Lra.
From Verif Require Import M_Prelude M_Time M_ND M_Spectrum M_Spline M_PP M_Model M_Text M_SHC M_FromSpline M_Loaders.
From Verif Require Import Spec_Text Spec_Loaders Spec_LoadErr Spec_LoadCut P_Text P_TextSpec P_Loaders P_Loaders2 P_SHCRead P_Loaders3 P_LoadErr P_LoadCut P_LoadCut2.
Import ListNotations.
Open Scope nat_scope.

(** ** Where to cut: after a number of words, after a number of lines *)
Lemma words_acc_prefix t : forall w k, k <= List.length (words_acc w t) -> (1 <= k \/ w = []) ->
  exists p r, t = (p ++ r)%list /\ words_acc w p = firstn k (words_acc w t).
Proof.
  induction t as [|c t IH]; intros w k L H.
  - exists [], []. split; [reflexivity|]. destruct w as [|x w]; cbn [words_acc] in *; [rewrite firstn_nil; reflexivity|].
    destruct H as [H|H]; [|discriminate]. destruct k as [|k]; [lia|]. cbn [firstn]. rewrite firstn_nil. reflexivity.
  - destruct k as [|k].
    { destruct H as [H|H]; [lia|]. subst w. exists [], (c :: t). split; reflexivity. }
    cbn [words_acc] in L. destruct (is_space c) eqn:S0.
    + destruct w as [|x w].
      * destruct (IH [] (S k) L ltac:(left; lia)) as (p & r & -> & K). exists (c :: p), r. split; [reflexivity|]. cbn [words_acc]. rewrite S0. exact K.
      * cbn [List.length] in L. destruct (IH [] k ltac:(lia) ltac:(right; reflexivity)) as (p & r & -> & K). exists (c :: p), r. split; [reflexivity|].
        cbn [words_acc app]. rewrite S0. cbn [firstn]. rewrite K. reflexivity.
    + destruct (IH (c :: w) (S k) L ltac:(left; lia)) as (p & r & -> & K). exists (c :: p), r. split; [reflexivity|]. cbn [words_acc app]. rewrite S0. exact K.
Qed.
Lemma words_prefix t k : k <= List.length (words t) -> exists p r, t = (p ++ r)%list /\ words p = firstn k (words t).
Proof. intros H. apply words_acc_prefix; [exact H|right; reflexivity]. Qed.
Lemma words_len_le t r : List.length (words t) < List.length (words (t ++ r)) -> r <> [].
Proof. intros H ->. rewrite app_nil_r in H. lia. Qed.
Lemma floats_prefix ws qs k : Forall2 number ws qs -> floats (firstn k ws) = firstn k qs.
Proof.
  intros H. revert k. induction H as [|w q ws qs N H IH]; intros [|k]; try reflexivity. cbn [firstn floats]. unfold number in N. rewrite N, IH. reflexivity.
Qed.
Lemma fromstring_prefix t qs k : Forall2 number (words t) qs -> k < List.length qs ->
  exists p r, t = (p ++ r)%list /\ r <> [] /\ fromstring p = firstn k qs.
Proof.
  intros H L. pose proof (F2len H) as LE. destruct (words_prefix t k ltac:(lia)) as (p & r & -> & K). exists p, r. split; [reflexivity|].
  split; [apply (words_len_le p); rewrite K, firstn_length; lia|]. unfold fromstring. rewrite K. apply floats_prefix, H.
Qed.
Lemma increasing_firstn l k : increasing l -> increasing (firstn k l).
Proof.
  intros I i Hi. rewrite firstn_length in Hi. assert (K : forall j, j < k -> nth j (firstn k l) 0%Q = nth j l 0%Q).
  { intros j Hj. rewrite <- (firstn_skipn k l) at 2. destruct (le_lt_dec (List.length l) j) as [G|G].
    - rewrite !nth_overflow; [reflexivity|rewrite firstn_skipn; exact G|rewrite firstn_length; lia].
    - rewrite app_nth1 by (rewrite firstn_length; lia). reflexivity. }
  rewrite !K by lia. apply I. lia.
Qed.
Lemma zero_loads nmax order years : 1 <= nmax -> 2 <= order <= List.length years -> increasing years ->
  exists M, spline_model (Z.of_nat nmax) (Z.of_nat order) (firstn order years) [] = Ok M /\ zero_model M nmax.
Proof.
  intros Hn Ho I. assert (LF : List.length (firstn order years) = order) by (rewrite firstn_length; lia).
  destruct (spline_model_ok nmax order (firstn order years) [] Hn ltac:(lia) (increasing_firstn _ _ I) ltac:(lia) ltac:(rewrite LF, Nat.sub_diag; reflexivity)) as (M & E & _).
  exists M. split; [exact E|]. exact (empty_zero nmax order _ M Hn ltac:(lia) E).
Qed.
Lemma firstn_head {A} (hd l r : list A) k : k <= List.length l -> firstn (List.length hd + k) (hd ++ l ++ r) = (hd ++ firstn k l)%list.
Proof. intros H. rewrite firstn_app_2. f_equal. rewrite firstn_app. replace (k - List.length l) with 0 by lia. cbn [firstn]. apply app_nil_r. Qed.

Theorem gufm1_zero content nmax years data : 1 <= nmax -> 4 < List.length years -> gufm1_file content nmax years data ->
  exists cut M, cut_off cut content /\ load_gufm1_txtfile cut = Ok M /\ zero_model M nmax.
Proof.
  intros Hn Hy (title & rest & datas & qn & qs & EL & ND & EC & E1 & E2 & I & L1 & LD).
  destruct (lines_cons _ _ _ EL) as (NL & [(EQ & ->)|(body & -> & ->)]).
  { inversion ND; subst. discriminate. }
  assert (NB : Forall2 number (words body) (qn :: qs :: years ++ data)).
  { rewrite <- EC. pose proof (numbers_join _ _ ND) as K. unfold numbers in K. rewrite words_join_lines in K. unfold lines in K. rewrite words_lines_acc in K. exact K. }
  destruct (fromstring_prefix body _ 6 NB) as (p & r & -> & NR & FP); [cbn [List.length]; rewrite app_length; lia|].
  destruct (zero_loads nmax 4 years Hn ltac:(lia) I) as (M & E & ZM).
  exists (title ++ newline :: p)%list, M. split; [exists r; split; [exact NR|rewrite <- app_assoc; reflexivity]|]. split; [|exact ZM].
  change (qn :: qs :: years ++ data)%list with ([qn; qs] ++ years ++ data)%list in FP. change 6 with (List.length [qn; qs] + 4) in FP. rewrite firstn_head in FP by lia.
  unfold load_gufm1_txtfile. rewrite lines_first by exact NL. cbn [skipn]. rewrite fromstring_join, FP. unfold item. cbn [app nth_error bind].
  rewrite (Qtrunc_int _ _ E1), (Qtrunc_int _ _ E2).
  replace (Z.of_nat (List.length years - 4) + 4 + 2)%Z with (Z.of_nat (2 + List.length years)) by lia. rewrite slice_to_firstn, slice_from_skipn.
  cbn [skipn]. rewrite (firstn_all2 (firstn 4 years)) by (rewrite firstn_length; lia).
  replace (skipn (2 + List.length years) (qn :: qs :: firstn 4 years)) with (@nil Q) by (symmetry; apply skipn_all2; cbn [List.length]; rewrite firstn_length; lia).
  exact E.
Qed.
Lemma words_replace t : words (replace_D t) = map (map D_to_E) (words t).
Proof. pose proof (words_acc_D t []) as W. cbn [map] in W. exact W. Qed.
Theorem cals7k_zero content nmax years data : 1 <= nmax -> 4 < List.length years -> cals7k_file content nmax years data ->
  exists cut M, cut_off cut content /\ load_CALS7K_txtfile cut = Ok M /\ zero_model M nmax.
Proof.
  intros Hn Hy (ts & te & qo & q3 & qn & q5 & qs & ND & E1 & E2 & I & L1 & LD).
  assert (LE : List.length (words content) = 7 + (List.length years + List.length data)).
  { pose proof (F2len ND) as LE. cbn [List.length] in LE. rewrite app_length in LE. exact LE. }
  destruct (words_prefix content 11 ltac:(lia)) as (p & r & -> & K).
  destruct (zero_loads nmax 4 years Hn ltac:(lia) I) as (M & E & ZM).
  exists p, M. split; [exists r; split; [|reflexivity]; apply (words_len_le p); rewrite K, firstn_length; lia|]. split; [|exact ZM].
  assert (FP : fromstring (replace_D p) = firstn (List.length [ts; te; qo; q3; qn; q5; qs] + 4) ([ts; te; qo; q3; qn; q5; qs] ++ years ++ data)).
  { unfold fromstring. rewrite words_replace, K, <- firstn_map. apply (floats_prefix _ _ 11). clear - ND. unfold numbers_D in ND.
    change (Forall2 (fun w q => number (map D_to_E w) q) (words (p ++ r)) ([ts; te; qo; q3; qn; q5; qs] ++ years ++ data)) in ND. revert ND.
    generalize ([ts; te; qo; q3; qn; q5; qs] ++ years ++ data)%list. generalize (words (p ++ r)). intros w0 l0 ND.
    induction ND; cbn [map]; constructor; assumption. }
  rewrite firstn_head in FP by lia.
  unfold load_CALS7K_txtfile. rewrite FP. unfold item. cbn [app nth_error bind].
  rewrite (Qtrunc_int _ _ E1), (Qtrunc_int _ _ E2).
  replace (7 + (Z.of_nat (List.length years - 4) + 4))%Z with (Z.of_nat (7 + List.length years)) by lia. rewrite slice_to_firstn, slice_from_skipn.
  cbn [skipn]. rewrite (firstn_all2 (firstn 4 years)) by (rewrite firstn_length; lia).
  replace (skipn (7 + List.length years) _) with (@nil Q) by (symmetry; apply skipn_all2; cbn [List.length]; rewrite firstn_length; lia).
  exact E.
Qed.
Theorem covobs_zero content nmax order years data : 1 <= nmax -> 2 <= order < List.length years -> covobs_file content nmax order years data ->
  exists cut M, cut_off cut content /\ load_CovObs_txtfile cut = Ok M /\ zero_model M nmax.
Proof.
  intros Hn Ho (title & params & rest & datas & qn & q1 & qo & EL & NP & E1 & E2 & ND & -> & I & L1 & L2 & LD).
  destruct (lines_cons _ _ _ EL) as (NL & [(_ & K)|(body & -> & EB)]); [discriminate|]. symmetry in EB.
  destruct (lines_cons _ _ _ EB) as (NL2 & D).
  destruct (fromstring_prefix params _ (3 + order) NP) as (p & r & -> & NR & FP); [cbn [List.length]; lia|].
  assert (BX : exists x, body = (p ++ r ++ x)%list).
  { destruct D as [(-> & _)|(b2 & -> & _)]; [exists []; rewrite app_nil_r; reflexivity|eexists; rewrite <- app_assoc; reflexivity]. }
  destruct BX as (x & ->). destruct (zero_loads nmax order years Hn ltac:(lia) I) as (M & E & ZM).
  exists (title ++ newline :: p)%list, M. split; [exists (r ++ x)%list; split; [destruct r; [congruence|discriminate]|rewrite <- app_assoc; reflexivity]|]. split; [|exact ZM].
  assert (NP1 : ~ In newline p) by (intros H; apply NL2; apply in_app_iff; left; exact H).
  assert (LP : lines p = [p]). { destruct (lines_one p NP1) as [H|H]; [|exact H]. destruct p as [|a p]; [discriminate FP|]. exfalso. revert H. change (lines (a :: p) <> []). 
    intros H. pose proof (lines_last_line (a :: p)) as K. rewrite K in H; [discriminate|apply not_in_one, NP1|discriminate]. }
  unfold load_CovObs_txtfile. rewrite lines_first by exact NL. rewrite LP. unfold item at 1. cbn [nth_error bind skipn].
  change (join_lines []) with (@nil ascii). rewrite fromstring_nil, FP. cbn [Nat.add firstn]. unfold item. cbn [nth_error bind skipn].
  rewrite (Qtrunc_int _ _ E1), (Qtrunc_int _ _ E2). exact E.
Qed.

(** ** IGRF: cut after a row *)
Lemma lines_prefix content : forall ls k, lines content = ls -> exists p r, content = (p ++ r)%list /\ lines p = firstn k ls.
Proof.
  intros ls k H. apply lines_spec in H. revert k. induction H as [|l A B|l r ls A B IH]; intros k.
  - exists [], []. split; [reflexivity|]. rewrite firstn_nil. reflexivity.
  - destruct k as [|k]; [exists [], l; split; reflexivity|]. exists l, []. split; [symmetry; apply app_nil_r|]. cbn [firstn]. rewrite firstn_nil. apply lines_last_line; [apply not_in_one; exact B|exact A].
  - destruct k as [|k]; [exists [], (l ++ newline :: r)%list; split; reflexivity|]. destruct (IH k) as (p & x & -> & K).
    exists (l ++ newline :: p)%list, x. split; [rewrite <- app_assoc; reflexivity|]. cbn [firstn]. rewrite lines_first by exact A. rewrite K. reflexivity.
Qed.
Lemma wc_prefix ls cs i : without_comments ls cs -> exists k, without_comments (firstn k ls) (firstn i cs).
Proof.
  intros H. revert i. induction H as [|l ls cs C H IH|l ls cs C H IH]; intros i.
  - exists 0. destruct i; exact wc_nil.
  - destruct (IH i) as (k & K). exists (S k). cbn [firstn]. constructor 2; assumption.
  - destruct i as [|i]; [exists 0; constructor|]. destruct (IH i) as (k & K). exists (S k). cbn [firstn]. constructor 3; assumption.
Qed.
Lemma F2_firstn {A B} (P : A -> B -> Prop) l m k : Forall2 P l m -> Forall2 P (firstn k l) (firstn k m).
Proof. intros H. revert k. induction H; intros [|k]; cbn [firstn]; constructor; auto. Qed.
Lemma wc_fun ls cs cs' : without_comments ls cs -> without_comments ls cs' -> cs = cs'.
Proof.
  intros H. revert cs'. induction H; intros cs' K; inversion K; subst; try contradiction; [reflexivity|auto|f_equal; auto].
Qed.
Theorem igrf_fewer content epochs table j : igrf_file content epochs table -> 1 <= j < List.length table ->
  List.Forall (fun y => (1708 <= y)%Q /\ (y < 2288)%Q) epochs ->
  exists cut M, cut_off cut content /\ igrf_file cut epochs (firstn j table) /\ load_IGRF_txtfile cut = Ok M /\
    forall n, j = n * (n + 2) -> m_nmax M = Some (Z.of_nat n).
Proof.
  intros (header & body & W & H1 & FB & NE & I) Hj Y.
  destruct (wc_prefix _ _ (S j) W) as (k & K). destruct (lines_prefix content _ k eq_refl) as (p & r & EC & LP). cbn [firstn] in K. rewrite <- LP in K.
  assert (F : igrf_file p epochs (firstn j table)).
  { exists header, (firstn j body). split; [exact K|]. split; [exact H1|]. split; [apply F2_firstn, FB|]. split; assumption. }
  assert (LJ : List.length (firstn j table) = j) by (rewrite firstn_length; lia).
  destruct (igrf_loads p epochs (firstn j table) F) as (M & E & _ & D & _); [intros X; rewrite X in LJ; cbn in LJ; lia|exact Y|].
  exists p, M. split; [|split; [exact F|split; [exact E|intros n Hn; apply D; rewrite LJ; exact Hn]]].
  exists r. split; [|exact EC]. intros ->. rewrite app_nil_r in EC. subst p. pose proof (wc_fun _ _ _ W K) as X. injection X as X. pose proof (F2len FB) as L.
  apply (f_equal (@List.length text)) in X. rewrite firstn_length in X. lia.
Qed.
