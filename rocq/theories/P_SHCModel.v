(** SHC export and import of piecewise constant models. *)
From Coq Require Import Reals QArith Qabs Qreals List Arith ZArith String Ascii Bool Lia Lra.
From Verif Require Import M_Prelude M_ND M_Spectrum M_PP M_Model M_Time M_Text M_SHC M_SHCModel Spec_Field Spec_PP Spec_SHC
  P_PP P_PP2 P_ND P_SHC2 P_SHC3 P_SHC4 P_SynthProps3 P_Model.
Import ListNotations.
Open Scope R_scope.

Lemma removelast_length {A} (l : list A) : List.length (removelast l) = (List.length l - 1)%nat.
Proof. induction l as [|a [|b l] IH]; cbn; [reflexivity|reflexivity|]. cbn in IH. rewrite IH. lia. Qed.
Lemma removelast_nth {A} (l : list A) d i : (i + 1 < List.length l)%nat -> nth i (removelast l) d = nth i l d.
Proof.
  revert i. induction l as [|a [|b l] IH]; intros i H; [cbn in H; lia|cbn in H; lia|]. 
  change (removelast (a :: b :: l)) with (a :: removelast (b :: l)). destruct i as [|i]; [reflexivity|]. cbn [nth]. apply IH. cbn in *. lia.
Qed.

Section Const.
Variables (x : list R) (D : nat) (c : nat -> nat -> nat -> R) (source : option string).
Local Notation M := (model_init (Some x) None (Some (mkc3 1 (List.length x - 1) D c)) source).

Lemma const_data N0 : good_breaks x -> (N0 * (N0 + 2) <= D)%nat -> (D < (N0 + 1) * (N0 + 3))%nat -> (1 <= N0)%nat ->
  exists r, to_shc_data M = Ok (removelast x, r) /\ s_dim r = (N0 * (N0 + 2))%nat /\
    forall i j, (i + 1 < List.length x)%nat -> (j < N0 * (N0 + 2))%nat -> s_at r [i] j = Some (c 0%nat i j).
Proof.
  intros G D1 D2 HN. unfold to_shc_data. pose proof G as [L2 GS].
  assert (EB : b_breaks (m_base M) = Some x) by (destruct x as [|? [|? ?]]; [reflexivity|cbn in L2; lia|reflexivity]).
  rewrite EB. cbn [m_base model_init base_init b_coeffs b_order c_k m_nmax b_dim c_d option_map].
  destruct (degree_of_size_spec D) as (N0' & D1' & D2' & D3'). assert (N0' = N0) by nia. subst N0'. rewrite D3', Nat2Z.id. cbn [bind].
  change (Z.of_nat 1) with 1%Z. unfold to_shc_times. cbn [Z.eqb bind Pos.eqb].
  unfold model_coeffs. change (m_base M) with (P_PP.model x 1 D c). cbn [option_map].
  set (time := vec 0 (removelast x)).
  assert (NE : elems time <> []).
  { unfold time. rewrite elems_vec. intros E. apply (f_equal (@List.length R)) in E. rewrite removelast_length in E. cbn in E. lia. }
  destruct (C39_ok x 1 D c time (Some (N0 * (N0 + 2))%nat) None XNone G ltac:(lia) ltac:(nia) NE ltac:(discriminate)) as (r & ER & S1 & S2).
  rewrite ER. cbn [bind]. exists r. split; [reflexivity|]. split; [rewrite S2; lia|].
  intros i j Hi Hj. assert (V : valid (sh time) [i]).
  { unfold time, vec. cbn [sh]. rewrite removelast_length. constructor; [lia|constructor]. }
  assert (AT : at_ time [i] = nth i x 0) by (unfold time, vec; cbn [at_]; apply removelast_nth; exact Hi).
  assert (HI : in_interval x i (at_ time [i])).
  { rewrite AT. split; [exact Hi|]. split; [lra|]. left. apply GS. exact Hi. }
  rewrite (C39 x 1 D c time _ XNone r [i] i j G ltac:(lia) ltac:(lia) V ER HI). f_equal.
  unfold piece. cbn. ring.
Qed.
End Const.

Lemma Q2R_abs (p q e : Q) : (Qabs (p - q) <= e)%Q -> Rabs (Q2R p - Q2R q) <= Q2R e.
Proof.
  intros H. apply Qabs_Qle_condition in H. destruct H as [H1 H2]. apply Qle_Rle in H1, H2. rewrite Q2R_opp, Q2R_minus in H1. rewrite Q2R_minus in H2.
  apply Rabs_le. lra.
Qed.
Lemma comment_name name : ~ In "010"%char name -> comment_lines (txt "# " ++ name ++ nl).
Proof.
  intros H. exists [(" "%char :: name)]. split; [cbn [flat_map txt list_ascii_of_string app]; rewrite app_nil_r; reflexivity|].
  constructor; [|constructor]. intros [E|E]; [discriminate|contradiction].
Qed.

Lemma last_is_nth {A} (l : list A) (d e : A) : l <> [] -> last l d = nth (List.length l - 1) l e.
Proof.
  induction l as [|u [|v l] IH]; intros H; [congruence|reflexivity|].
  change (last (u :: v :: l) d) with (last (v :: l) d). rewrite IH by discriminate. cbn [List.length].
  replace (S (S (List.length l)) - 1)%nat with (S (S (List.length l) - 1)) by lia. reflexivity.
Qed.
Definition leap_flag (lp : option bool) : bool := match lp with None => false | Some b => b end.

Lemma const_round_trip now fs name x D c source tq cq path lp nmin nmax header a b source' lsq :
  let M := model_init (Some x) None (Some (mkc3 1 (List.length x - 1) D c)) source in
  good_breaks x -> exported M tq cq ->
  first_degree nmin a -> last_degree D nmax b -> (1 <= a <= b)%nat -> (b * (b + 2) <= D)%nat ->
  (match header with None => ~ In "010"%char name | Some h => comment_lines h end) -> ~ In "010"%char now ->
  (lp = Some true -> forall i, (i + 1 < List.length x)%nat -> -106650 <= nth i x 0 < 107016) ->
  exists fs' text M' y c',
    to_shc now fs name M tq cq path lp nmin nmax header = (fs', Ok tt) /\ fs' path = Some text /\
    from_shc lsq text lp source' = Ok M' /\
    M' = model_init (Some y) (Some 1%Z) (Some (mkc3 1 (List.length x - 1) (b * (b + 2)) c')) source' /\
    List.length y = List.length x /\
    (forall i, (i + 1 < List.length x)%nat -> Rabs (nth i y 0 - nth i x 0) <= 2 / 1000000) /\
    nth (List.length x - 1) y 0 = nth (List.length x - 2) y 0 /\
    forall i j, (i + 1 < List.length x)%nat -> (j < b * (b + 2))%nat ->
      ((j < a * a - 1)%nat -> c' 0%nat i j = 0) /\
      ((a * a - 1 <= j)%nat -> Rabs (c' 0%nat i j - c 0%nat i j) <= 1 / 200000000).
Proof.
  intros M G EX Ha Hb Hab HbD Hh Hn Hlp. pose proof G as [L2 GS].
  destruct (degree_of_size_spec D) as (N0 & D1 & D2 & D3).
  assert (BN : (b <= N0)%nat) by nia.
  destruct (const_data x D c source N0 G D1 D2 ltac:(lia)) as (r & ED & SD & SV). fold M in ED.
  destruct EX as (times & r' & ED' & TQ & C1 & C2 & C3 & C4). rewrite ED in ED'. injection ED' as <- <-.
  assert (LT : List.length tq = (List.length x - 1)%nat) by (rewrite <- (map_length Q2R), TQ, removelast_length; reflexivity).
  assert (TV : forall i, (i + 1 < List.length x)%nat -> Q2R (nth i tq 0%Q) = nth i x 0).
  { intros i Hi. rewrite <- (removelast_nth x 0 i Hi), <- TQ. rewrite <- RMicromega.Q2R_0. rewrite (map_nth Q2R). reflexivity. }
  assert (CV : forall i j, (i + 1 < List.length x)%nat -> (j < N0 * (N0 + 2))%nat -> Q2R (c_at cq i j) = c 0%nat i j).
  { intros i j Hi Hj. assert (X : Some (c 0%nat i j) = Some (Q2R (c_at cq i j))).
    { rewrite <- SV by assumption. apply C4; [rewrite removelast_length; lia|lia]. } congruence. }
  set (hd := match header with None => (txt "# " ++ name ++ nl)%list | Some h => h end).
  set (nmx := match nmax with None => m_nmax M | Some n => Some n end).
  assert (HM : m_nmax M = Some (Z.of_nat N0)) by (unfold M, model_init, base_init; cbn; rewrite D3; destruct x as [|? [|? ?]]; reflexivity).
  assert (LD : last_degree (c_cols cq) nmx b).
  { unfold nmx, last_degree in *. destruct nmax as [n|]; [exact Hb|]. rewrite HM. f_equal. nia. }
  assert (FD : first_degree (Some (match nmin with None => 1%Z | Some n => n end)) a).
  { unfold first_degree in *. destruct nmin; [exact Ha|]. subst a. reflexivity. }
  assert (HO : b_order (m_base M) = Some 1%Z) by reflexivity.
  destruct (C47_round now fs tq cq (Some 1%Z) (Some path) (Some (match nmin with None => 1%Z | Some n => n end)) nmx (Some (leap_flag lp)) (Some hd) a b FD LD Hab)
    as (fs' & text & s & E1 & E2 & E3 & E4 & E5 & E6 & E7).
  { rewrite C3, SD. nia. }
  { rewrite C1, C2, removelast_length, LT. reflexivity. }
  { unfold hd. destruct header as [h|]; [exact Hh|apply comment_name; exact Hh]. }
  { exact Hn. }
  cbv zeta in E3, E4, E5.
  (* positions *)
  assert (E8 : forall j i, (j < (b + 1) * (b + 1) - a * a)%nat -> (i < List.length tq)%nat ->
     exists row, nth_error (l_rows s) j = Some row /\ eight_decimals (c_at cq i (a * a - 1 + j)%nat) (nth i row 0%Q)).
  { intros j i Hj Hi. assert (PC : (a * a - 1 + j < b * (b + 2))%nat) by nia.
    destruct (P_SynthProps2.positions_cover b _ PC) as (n & m & N1 & M1 & [P|[M2 P]]).
    - change (P_SynthProps2.gidx n m) with (g_position n m) in P. assert (N2 : (a <= n)%nat) by (unfold g_position in P; destruct (Nat.eqb_spec m 0); nia).
      destruct (E7 n m i ltac:(lia) M1 Hi) as (row & R1 & _ & R2 & _). exists row. rewrite P. split; [|exact R2]. rewrite <- R1. f_equal. lia.
    - change (P_SynthProps2.hidx n m) with (h_position n m) in P. assert (N2 : (a <= n)%nat) by (unfold h_position in P; nia).
      destruct (E7 n m i ltac:(lia) M1 Hi) as (_ & _ & _ & _ & R). destruct (R M2) as (row & R1 & _ & R2). exists row. rewrite P. split; [|exact R2]. rewrite <- R1. f_equal. lia. }
  assert (LTS : List.length (l_time s) = (List.length x - 1)%nat) by (rewrite <- LT; symmetry; exact (Forall2_length _ _ _ E5)).
  assert (TS : to_shc now fs name M tq cq path lp nmin nmax header =
    save_shcfile now fs (TVec tq) cq (Some 1%Z) (Some path) (Some (match nmin with None => 1%Z | Some n => n end)) nmx (Some (leap_flag lp)) (Some hd)) by reflexivity.
  rewrite TS, E1. exists fs', text.
  destruct (l_time s) as [|t0 ts] eqn:ETS; [cbn in LTS; lia|].
  set (y := map Q2R ((t0 :: ts) ++ [last (t0 :: ts) t0])%list).
  set (value := fun i j => Q2R (nth i (nth j (l_rows s) []) 0%Q)).
  set (c' := fun (_ i j : nat) => if (1 <? Z.of_nat a)%Z then (if (j <? a * a - 1)%nat then 0 else value i (j - (a * a - 1))%nat) else value i j).
  exists (model_init (Some y) (Some 1%Z) (Some (mkc3 1 (List.length x - 1) (b * (b + 2)) c')) source'), y, c'.
  split; [reflexivity|]. split; [exact E2|]. split.
  { assert (YE : y = (map Q2R (t0 :: ts) ++ [last (map Q2R (t0 :: ts)) (Q2R t0)])%list).
    { unfold y. rewrite map_app. cbn [map]. do 2 f_equal. clear. generalize t0 at 2 4. induction ts as [|u ts IH] in t0 |- *; intros d; [reflexivity|].
      change (last (t0 :: u :: ts) d) with (last (u :: ts) d). change (last (Q2R t0 :: map Q2R (u :: ts)) (Q2R d)) with (last (Q2R u :: map Q2R ts) (Q2R d)). apply IH. }
    unfold from_shc. change (match lp with None => false | Some b => b end) with (leap_flag lp). cbv zeta. rewrite E3. cbn [bind]. rewrite E4, ETS.
    change (1 =? 1)%Z with true. cbv iota. cbn [map]. change (Q2R t0 :: map Q2R ts) with (map Q2R (t0 :: ts)). rewrite <- YE, map_length, LTS.
    unfold shc_padded. rewrite E6. unfold c'.
    destruct (Z.ltb_spec 1 (Z.of_nat a)) as [A1|A1].
    - replace (Z.to_nat (Z.of_nat a * Z.of_nat a - 1)) with (a * a - 1)%nat by nia.
      destruct (Z.ltb_spec (Z.of_nat b * (Z.of_nat b + 2)) 0) as [NB|_]; [exfalso; nia|].
      replace (Z.to_nat (Z.of_nat b * (Z.of_nat b + 2))) with (b * (b + 2))%nat by nia.
      replace (b * (b + 2) - (a * a - 1) =? (b + 1) * (b + 1) - a * a)%nat with true by (symmetry; apply Nat.eqb_eq; nia).
      cbn [negb bind]. reflexivity.
    - assert (a = 1)%nat by lia. subst a. cbn [bind]. replace ((b + 1) * (b + 1) - 1 * 1)%nat with (b * (b + 2))%nat by nia. reflexivity. }
  split; [reflexivity|].
  assert (YN : forall i, (i < List.length (t0 :: ts))%nat -> nth i y 0 = Q2R (nth i (t0 :: ts) 0%Q)).
  { intros i Hi. unfold y. rewrite <- RMicromega.Q2R_0, (map_nth Q2R), app_nth1 by exact Hi. reflexivity. }
  split. { unfold y. rewrite map_length, app_length, LTS. cbn. lia. }
  split.
  { intros i Hi. rewrite YN by lia. rewrite <- (TV i Hi).
    assert (F : exists y0 q, mjd_to_dyear (nth i tq 0%Q) (Some (leap_flag lp)) = Ok y0 /\ eight_decimals y0 q /\ dyear_to_mjd q (Some (leap_flag lp)) = Ok (nth i (t0 :: ts) 0%Q)).
    { clear - E5 Hi LT. revert i Hi LT E5. generalize (List.length x). generalize (t0 :: ts). intros l n i Hi LT F. assert (H : (i < List.length tq)%nat) by lia. clear LT Hi.
      revert i H. induction F as [|u v tq' l' HH F IH]; intros i H; [cbn in H; lia|]. destruct i as [|i]; [exact HH|]. apply IH. cbn in H. lia. }
    destruct F as (y0 & q & F1 & F2 & F3).
    replace (2 / 1000000) with (Q2R (2 # 1000000)) by (unfold Q2R; cbn; lra).
    apply Q2R_abs. apply (C47_time (nth i tq 0%Q) (Some (leap_flag lp)) y0 q); [|exact F1|exact F2|exact F3].
    destruct lp as [[]|]; cbn; auto. specialize (Hlp eq_refl i Hi). rewrite <- (TV i Hi) in Hlp.
    replace (-106650) with (Q2R (-106650 # 1)) in Hlp by (unfold Q2R; cbn; lra).
    replace 107016 with (Q2R (107016 # 1)) in Hlp by (unfold Q2R; cbn; lra). destruct Hlp as [X Y]. apply Rle_Qle in X. apply Rlt_Qlt in Y. split; assumption. }
  split.
  { rewrite (YN (List.length x - 2)%nat) by lia. unfold y. rewrite <- RMicromega.Q2R_0, (map_nth Q2R). rewrite app_nth2 by lia. rewrite LTS, Nat.sub_diag.
    change (Q2R (last (t0 :: ts) t0) = Q2R (nth (List.length x - 2) (t0 :: ts) 0%Q)).
    rewrite (last_is_nth (t0 :: ts) t0 0%Q) by discriminate. rewrite LTS. do 2 f_equal. lia. }
  intros i j Hi Hj.
  assert (VAL : forall j', (j' < (b + 1) * (b + 1) - a * a)%nat -> Rabs (value i j' - c 0%nat i (a * a - 1 + j')%nat) <= 1 / 200000000).
  { intros j' Hj'. destruct (E8 j' i Hj' ltac:(lia)) as (row & R1 & (k & _ & R2)). unfold value.
    rewrite (nth_error_nth _ _ _ R1). rewrite <- (CV i (a * a - 1 + j')%nat Hi ltac:(nia)).
    replace (1 / 200000000) with (Q2R (1 # 200000000)) by (unfold Q2R; cbn; lra). apply Q2R_abs. exact R2. }
  unfold c'. destruct (Z.ltb_spec 1 (Z.of_nat a)) as [A1|A1].
  - split; intros H; (destruct (Nat.ltb_spec j (a * a - 1)); [|]); try lia; [reflexivity|].
    specialize (VAL (j - (a * a - 1))%nat ltac:(nia)). replace (a * a - 1 + (j - (a * a - 1)))%nat with j in VAL by lia. exact VAL.
  - assert (a = 1)%nat by lia. subst a. split; intros H; [lia|]. apply (VAL j). nia.
Qed.
