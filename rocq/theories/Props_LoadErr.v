(** C139: model files with a damaged table are reported. *)
From Coq Require Import Reals QArith Qreals List Arith ZArith String Ascii Bool Lia.
From Verif Require Import M_Prelude M_Text M_PP M_Model M_Loaders Spec_Loaders Spec_LoadErr Spec_LoadCut P_LoadErr P_LoadFew P_Loaders3 W_Loaders.
Import ListNotations.

Theorem C139_wrong_number_of_coefficients : forall content nmax years data, (1 <= nmax)%nat ->
  (forall order, covobs_layout content nmax order years data -> (1 <= order <= List.length years)%nat -> wrong_count nmax order years data ->
     load_CovObs_txtfile content = Err ValueError) /\
  (gufm1_layout content nmax years data -> (4 <= List.length years)%nat -> wrong_count nmax 4 years data -> load_gufm1_txtfile content = Err ValueError) /\
  (cals7k_layout content nmax years data -> (4 <= List.length years)%nat -> wrong_count nmax 4 years data -> load_CALS7K_txtfile content = Err ValueError).
Proof.
  intros content nmax years data Hn. split; [|split].
  - intros order L H W. apply (covobs_err content nmax order years data _ L). apply spline_wrong_count; [exact Hn|lia|lia|exact W].
  - intros L H W. apply (gufm1_err content nmax years data _ L). apply (spline_wrong_count nmax 4); [exact Hn|lia|lia|exact W].
  - intros L H W. apply (cals7k_err content nmax years data _ L). apply (spline_wrong_count nmax 4); [exact Hn|lia|lia|exact W].
Qed.
Theorem C139_years_out_of_order : forall content nmax years data, (1 <= nmax)%nat -> out_of_order years ->
  (forall order, covobs_layout content nmax order years data -> (1 <= order <= List.length years)%nat -> load_CovObs_txtfile content = Err ValueError) /\
  (gufm1_layout content nmax years data -> (4 <= List.length years)%nat -> load_gufm1_txtfile content = Err ValueError) /\
  (cals7k_layout content nmax years data -> (4 <= List.length years)%nat -> load_CALS7K_txtfile content = Err ValueError).
Proof.
  intros content nmax years data Hn O. split; [|split].
  - intros order L H. apply (covobs_err content nmax order years data _ L). apply spline_out_of_order; [exact Hn|lia|lia|exact O].
  - intros L H. apply (gufm1_err content nmax years data _ L). apply (spline_out_of_order nmax 4); [exact Hn|lia|lia|exact O].
  - intros L H. apply (cals7k_err content nmax years data _ L). apply (spline_out_of_order nmax 4); [exact Hn|lia|lia|exact O].
Qed.

(** Fewer knots than the order: only with one knot less, and a table with no row or
    one, is anything loaded, and this is a model without field. *)
Theorem C139_too_few_knots : forall content nmax years data M, (1 <= nmax)%nat ->
  let few := fun order => (List.length years + 1 = order)%nat /\ (List.length data = 0 \/ List.length data = nmax * (nmax + 2))%nat /\ zero_model M nmax in
  (forall order, covobs_layout content nmax order years data -> (List.length years < order)%nat -> load_CovObs_txtfile content = Ok M -> few order) /\
  (gufm1_layout content nmax years data -> (List.length years < 4)%nat -> load_gufm1_txtfile content = Ok M -> few 4%nat) /\
  (cals7k_layout content nmax years data -> (List.length years < 4)%nat -> load_CALS7K_txtfile content = Ok M -> few 4%nat).
Proof.
  intros content nmax years data M Hn few. split; [|split].
  - intros order L H S0. rewrite (covobs_same _ _ _ _ _ L) in S0. exact (few_knots nmax order years data M Hn ltac:(lia) H S0).
  - intros L H S0. rewrite (gufm1_same _ _ _ _ L) in S0. exact (few_knots nmax 4 years data M Hn ltac:(lia) H S0).
  - intros L H S0. rewrite (cals7k_same _ _ _ _ L) in S0. exact (few_knots nmax 4 years data M Hn ltac:(lia) H S0).
Qed.
Theorem C139_one_knot_too_few : forall content nmax years data, (1 <= nmax)%nat -> (2 <= List.length years)%nat -> increasing years ->
  (List.length data = 0 \/ List.length data = nmax * (nmax + 2))%nat -> covobs_layout content nmax (List.length years + 1) years data ->
  exists M, load_CovObs_txtfile content = Ok M /\ zero_model M nmax.
Proof. intros content nmax years data Hn Hy I D L. rewrite (covobs_same _ _ _ _ _ L). exact (few_loads nmax years data Hn Hy I D). Qed.
Definition few_gufm1 : text := file ["gufm1"; "1 -1"; "1590 1600 1610"; "-3e4 1 2.5"]%string.
Example C139_few_case : gufm1_layout few_gufm1 1 [1590; 1600; 1610]%Q [-30000; 1; 25 # 10]%Q /\ exists M, load_gufm1_txtfile few_gufm1 = Ok M.
Proof.
  split.
  - exists (txt "gufm1"), [txt "1 -1"; txt "1590 1600 1610"; txt "-3e4 1 2.5"], [[1; -1]; [1590; 1600; 1610]; [-30000; 1; 25 # 10]]%Q, 1%Q, (-1)%Q.
    split; [vm_compute; reflexivity|]. split; [|split; [reflexivity|split; reflexivity]].
    repeat (apply Forall2_cons; [nums|]). apply Forall2_nil.
  - destruct (few_loads 1 [1590; 1600; 1610]%Q [-30000; 1; 25 # 10]%Q ltac:(lia) ltac:(cbn; lia)) as (M & E & _); [incr|right; reflexivity|].
    exists M. rewrite <- E. reflexivity.
Qed.

(** IGRF: no header, a word that is no number, a wrong number of values. *)
Theorem C139_igrf_without_header : forall content, without_comments (lines content) [] -> load_IGRF_txtfile content = Err OtherError.
Proof. exact igrf_no_header. Qed.
Theorem C139_igrf_word_that_is_no_number : forall content header body epochs a b c ws sv, without_comments (lines content) (header :: body) ->
  words header = a :: b :: c :: (ws ++ [sv])%list -> Forall2 number ws epochs -> epochs <> [] ->
  (exists l, In l body /\ ~ exists qs, Forall2 number (skipn 3 (words l)) qs) -> load_IGRF_txtfile content = Err ValueError.
Proof. exact igrf_bad_word. Qed.
Theorem C139_igrf_number_of_values : forall content header body epochs a b c ws sv table, without_comments (lines content) (header :: body) ->
  words header = a :: b :: c :: (ws ++ [sv])%list -> Forall2 number ws epochs -> epochs <> [] ->
  Forall2 (fun l row => Forall2 number (skipn 3 (words l)) row) body table ->
  (List.length (List.concat table) mod (List.length epochs + 1) <> 0)%nat -> load_IGRF_txtfile content = Err ValueError.
Proof. exact igrf_bad_count. Qed.
(** Rows of different lengths with the right total are not noticed: the values
    move to other epochs and coefficients. *)
Definition ragged_text : text := file ["g/h n m 2015.0 2020.0 2020-25";
  "g 1 0 -29441.5 -29404.8"; "g 1 1 5.7 -1501.8 -1450.9 7.4"; "h 1 1 4796.0 4652.5 -25.9"]%string.
Theorem C139_igrf_row_lengths_are_not_noticed : load_IGRF_txtfile ragged_text = load_IGRF_txtfile igrf_text /\ igrf_file igrf_text [20150 # 10; 20200 # 10]%Q igrf_table /\
  exists l, In l (lines ragged_text) /\ List.length (words l) = 5%nat.
Proof.
  split; [|split; [exact igrf_example|]].
  - unfold load_IGRF_txtfile. replace (fold_left igrf_line (lines ragged_text) (Ok (None, []))) with (fold_left igrf_line (lines igrf_text) (Ok (None, []))); [reflexivity|vm_compute; reflexivity].
  - exists (txt "g 1 0 -29441.5 -29404.8"). split; [vm_compute; auto|reflexivity].
Qed.

Definition short_gufm1 : text := file ["title"; "1 1"; "1590 1600 1610 1620 1630"; "-30000 1"]%string.
Example C139_gufm1_case : gufm1_layout short_gufm1 1 [1590; 1600; 1610; 1620; 1630]%Q [-30000; 1]%Q /\ wrong_count 1 4 [1590; 1600; 1610; 1620; 1630]%Q [-30000; 1]%Q.
Proof.
  split; [|vm_compute; discriminate]. exists (txt "title"), [txt "1 1"; txt "1590 1600 1610 1620 1630"; txt "-30000 1"], [[1; 1]; [1590; 1600; 1610; 1620; 1630]; [-30000; 1]]%Q, 1%Q, 1%Q.
  split; [vm_compute; reflexivity|]. split; [|split; [reflexivity|split; reflexivity]].
  repeat (apply Forall2_cons; [unfold numbers; vm_compute words; repeat (apply Forall2_cons; [vm_compute; reflexivity|]); apply Forall2_nil|]). apply Forall2_nil.
Qed.
Example C139_order_case : out_of_order [1590; 1600; 1595; 1620]%Q.
Proof. exists 1%nat. split; [cbn; lia|reflexivity]. Qed.
Example C139_igrf_case : exists header body a b c ws sv epochs table,
  without_comments (lines (file ["g/h n m 2015 2020 SV"; "g 1 0 1 2"]%string)) (header :: body) /\ words header = a :: b :: c :: (ws ++ [sv])%list /\
  Forall2 number ws epochs /\ epochs <> [] /\ Forall2 (fun l row => Forall2 number (skipn 3 (words l)) row) body table /\
  (List.length (List.concat table) mod (List.length epochs + 1) <> 0)%nat.
Proof.
  exists (txt "g/h n m 2015 2020 SV"), [txt "g 1 0 1 2"], (txt "g/h"), (txt "n"), (txt "m"), [txt "2015"; txt "2020"], (txt "SV"), [2015; 2020]%Q, [[1; 2]]%Q.
  split. { vm_compute lines. repeat (apply wc_keep; [apply comment_first; [reflexivity|discriminate|discriminate]|]). apply wc_nil. }
  split; [reflexivity|]. split; [repeat (apply Forall2_cons; [vm_compute; reflexivity|]); apply Forall2_nil|]. split; [discriminate|].
  split; [|vm_compute; discriminate]. apply Forall2_cons; [|apply Forall2_nil]. repeat (apply Forall2_cons; [vm_compute; reflexivity|]). apply Forall2_nil.
Qed.

Print Assumptions C139_wrong_number_of_coefficients.
Print Assumptions C139_years_out_of_order.
Print Assumptions C139_igrf_without_header.
Print Assumptions C139_igrf_word_that_is_no_number.
Print Assumptions C139_igrf_number_of_values.
Print Assumptions C139_igrf_row_lengths_are_not_noticed.
Print Assumptions C139_too_few_knots.
Print Assumptions C139_one_knot_too_few.
