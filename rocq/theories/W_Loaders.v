(** Small files in the formats of Spec_Loaders. *)
From Coq Require Import Reals QArith List Arith ZArith String Ascii Bool Lia.
From Verif Require Import M_Text M_SHC Spec_Loaders.
Import ListNotations.
Open Scope nat_scope.

Definition file (ls : list string) : text := flat_map (fun l => txt l ++ nl)%list ls.

Lemma incr_2 a b : (a < b)%Q -> increasing [a; b].
Proof. intros H [|[|i]] Hi; cbn in Hi |- *; try lia; exact H. Qed.
Lemma incr_cons a b l : (a < b)%Q -> increasing (b :: l) -> increasing (a :: b :: l).
Proof. intros H I [|i] Hi; [exact H|]. apply (I i). cbn in Hi |- *. lia. Qed.

Ltac nums := unfold numbers, numbers_D; vm_compute words; repeat (apply Forall2_cons; [vm_compute; reflexivity|]); try apply Forall2_nil.
Ltac incr := repeat (first [apply incr_2; reflexivity | apply incr_cons; [reflexivity|]]).

Definition covobs_text : text := file ["COV-OBS"; "1 8 2 2000 2010.5 2020 2030"; "-1.5e2 2 3"; " 4 5 6"]%string.
Definition covobs_years : list Q := [2000; 20105 # 10; 2020; 2030]%Q.
Definition covobs_data : list Q := [-1500 # 10; 2; 3; 4; 5; 6]%Q.
Lemma covobs_example : covobs_file covobs_text 1 2 covobs_years covobs_data.
Proof.
  exists (txt "COV-OBS"), (txt "1 8 2 2000 2010.5 2020 2030"), [txt "-1.5e2 2 3"; txt " 4 5 6"], [[-1500 # 10; 2; 3]; [4; 5; 6]]%Q, 1%Q, 8%Q, 2%Q.
  split; [vm_compute; reflexivity|]. split; [nums|]. split; [reflexivity|]. split; [reflexivity|].
  split; [apply Forall2_cons; [nums|apply Forall2_cons; [nums|apply Forall2_nil]]|]. split; [reflexivity|].
  split; [unfold covobs_years; incr|]. cbn. lia.
Qed.
Definition covobs_const_text : text := file ["COV-OBS"; "1 8 1 2000 2010"; "1 2 3"]%string.
Lemma covobs_const_example : covobs_file covobs_const_text 1 1 [2000; 2010]%Q [1; 2; 3]%Q.
Proof.
  exists (txt "COV-OBS"), (txt "1 8 1 2000 2010"), [txt "1 2 3"], [[1; 2; 3]]%Q, 1%Q, 8%Q, 1%Q.
  split; [vm_compute; reflexivity|]. split; [nums|]. split; [reflexivity|]. split; [reflexivity|].
  split; [apply Forall2_cons; [nums|apply Forall2_nil]|]. split; [reflexivity|]. split; [incr|]. cbn. lia.
Qed.
Definition covobs_const3_text : text := file ["COV-OBS"; "1 8 1 2000 2010 2020"; "1 2 3 4 5 6"]%string.
Lemma covobs_const3_example : covobs_file covobs_const3_text 1 1 [2000; 2010; 2020]%Q [1; 2; 3; 4; 5; 6]%Q.
Proof.
  exists (txt "COV-OBS"), (txt "1 8 1 2000 2010 2020"), [txt "1 2 3 4 5 6"], [[1; 2; 3; 4; 5; 6]]%Q, 1%Q, 8%Q, 1%Q.
  split; [vm_compute; reflexivity|]. split; [nums|]. split; [reflexivity|]. split; [reflexivity|].
  split; [apply Forall2_cons; [nums|apply Forall2_nil]|]. split; [reflexivity|]. split; [incr|]. cbn. lia.
Qed.

Definition gufm1_text : text := file ["gufm1"; "1 1"; "1590 1600 1610 1620"; "1630"; "-3e4 1 2.5"]%string.
Lemma gufm1_example : gufm1_file gufm1_text 1 [1590; 1600; 1610; 1620; 1630]%Q [-30000; 1; 25 # 10]%Q.
Proof.
  exists (txt "gufm1"), [txt "1 1"; txt "1590 1600 1610 1620"; txt "1630"; txt "-3e4 1 2.5"],
    [[1; 1]; [1590; 1600; 1610; 1620]; [1630]; [-30000; 1; 25 # 10]]%Q, 1%Q, 1%Q.
  split; [vm_compute; reflexivity|].
  split; [repeat (apply Forall2_cons; [nums|]); apply Forall2_nil|].
  split; [reflexivity|]. split; [reflexivity|]. split; [reflexivity|]. split; [incr|]. cbn. lia.
Qed.

Definition cals7k_text : text := file ["-5000. 1950. 4 0 1 0 1"; "-5000 -3000 0 1000 1950"; "-0.3D+05 1.0D0 25D-1"]%string.
Lemma cals7k_example : cals7k_file cals7k_text 1 [-5000; -3000; 0; 1000; 1950]%Q [-300000 # 10; 10 # 10; 25 # 10]%Q.
Proof.
  exists (-5000)%Q, 1950%Q, 4%Q, 0%Q, 1%Q, 0%Q, 1%Q. split; [nums|].
  split; [reflexivity|]. split; [reflexivity|]. split; [incr|]. cbn. lia.
Qed.

Definition igrf_text : text := file ["# 13th generation"; "c/s deg ord IGRF SV"; "g/h n m 2015.0 2020.0 2020-25";
  "g 1 0 -29441.5 -29404.8 5.7"; "g 1 1 -1501.8 -1450.9 7.4"; "h 1 1 4796.0 4652.5 -25.9"]%string.
Definition igrf_table : list (list Q) := [[-294415 # 10; -294048 # 10; 57 # 10]; [-15018 # 10; -14509 # 10; 74 # 10]; [47960 # 10; 46525 # 10; -259 # 10]]%Q.
Lemma comment_first c w : is_space c = false -> c <> "#"%char -> c <> "c"%char -> ~ comment_line (c :: w).
Proof.
  intros S1 N1 N2 (s & r & F & [E|E]); (destruct s as [|x s]; [cbn in E; injection E as E _; contradiction|]);
    cbn in E; injection E as -> _; inversion F; congruence.
Qed.
Lemma igrf_example : igrf_file igrf_text [20150 # 10; 20200 # 10]%Q igrf_table.
Proof.
  eexists _, [_; _; _]. split.
  - vm_compute lines. apply wc_skip; [exists [], (txt " 13th generation"); split; [constructor|left; reflexivity]|].
    apply wc_skip; [exists [], (txt " deg ord IGRF SV"); split; [constructor|right; reflexivity]|].
    repeat (apply wc_keep; [apply comment_first; [reflexivity|discriminate|discriminate]|]). apply wc_nil.
  - split; [|split; [|split; [discriminate|incr]]].
    + exists (txt "g/h"), (txt "n"), (txt "m"), [txt "2015.0"; txt "2020.0"], (txt "2020-25"). split; [vm_compute; reflexivity|]. repeat (apply Forall2_cons; [vm_compute; reflexivity|]). apply Forall2_nil.
    + unfold igrf_table. repeat (apply Forall2_cons; [eexists _, _, _, _; split; [vm_compute; reflexivity|]; split; [repeat (apply Forall2_cons; [vm_compute; reflexivity|]); apply Forall2_nil|reflexivity]|]). apply Forall2_nil.
Qed.
