(** Concrete SHC exports; the last break of a piecewise constant model is lost. *)
From Coq Require Import Reals QArith Qabs Qreals List Arith ZArith String Ascii Bool Lia Lra.
From Verif Require Import M_Prelude M_ND M_Spectrum M_PP M_Model M_Time M_Text M_SHC M_SHCModel Spec_Field Spec_PP Spec_SHC P_PP P_SHCModel P_Model.
Import ListNotations.
Open Scope R_scope.

Lemma Q2R_le0 (p q : Q) : (p < q)%Q -> Q2R p < Q2R q. Proof. apply Qlt_Rlt. Qed.

(** Every model with rational numbers has an export. *)
Lemma exported_exists (xq : list Q) D (c : nat -> nat -> Q) source N0 :
  good_breaks (map Q2R xq) -> (N0 * (N0 + 2) <= D)%nat -> (D < (N0 + 1) * (N0 + 3))%nat -> (1 <= N0)%nat ->
  exported (model_init (Some (map Q2R xq)) None (Some (mkc3 1 (List.length (map Q2R xq) - 1) D (fun _ i j => Q2R (c i j)))) source)
    (removelast xq) (mkcoefs false (List.length xq - 1) (N0 * (N0 + 2)) c).
Proof.
  intros G D1 D2 HN. destruct (const_data (map Q2R xq) D (fun _ i j => Q2R (c i j)) source N0 G D1 D2 HN) as (r & E & S & V).
  exists (removelast (map Q2R xq)), r. split; [exact E|]. split.
  { clear. induction xq as [|a [|b l] IH]; [reflexivity|reflexivity|]. change (removelast (a :: b :: l)) with (a :: removelast (b :: l)).
    change (removelast (map Q2R (a :: b :: l))) with (Q2R a :: removelast (map Q2R (b :: l))). cbn [map] in *. rewrite <- IH. reflexivity. }
  split; [reflexivity|]. cbn [c_rows c_cols c_at]. split; [rewrite removelast_length, map_length; reflexivity|]. split; [symmetry; exact S|].
  intros i j Hi Hj. rewrite removelast_length, map_length in Hi. rewrite S in Hj. apply V; [rewrite map_length; lia|exact Hj].
Qed.

Definition w_x : list R := map Q2R [0; 366]%Q.
Definition w_c (i j : nat) : Q := (Z.of_nat j + 1 # 4).
Definition w_model : field_model := model_init (Some w_x) None (Some (mkc3 1 (List.length w_x - 1) 3 (fun _ i j => Q2R (w_c i j)))) None.
Definition w_coefs : coefs := mkcoefs false 1 3 w_c.
Lemma w_good : good_breaks w_x.
Proof. split; [cbn; lia|]. intros [|i] Hi; [|cbn in Hi; lia]. cbn. apply Qlt_Rlt. reflexivity. Qed.
Lemma w_exported : exported w_model [0]%Q w_coefs.
Proof. exact (exported_exists [0; 366]%Q 3 w_c None 1 w_good ltac:(lia) ltac:(lia) ltac:(lia)). Qed.

Lemma w_lost lsq : exists fs' text M' y,
  to_shc (txt "now") (fun _ => None) (txt "m") w_model [0]%Q w_coefs "f.shc" None None None None = (fs', Ok tt) /\
  fs' "f.shc"%string = Some text /\ from_shc lsq text None None = Ok M' /\ b_breaks (m_base M') = Some y /\
  365 < Rabs (last_break y - last_break w_x).
Proof.
  destruct (const_round_trip (txt "now") (fun _ => None) (txt "m") w_x 3 (fun _ i j => Q2R (w_c i j)) None [0]%Q w_coefs "f.shc" None None None None 1 1 None lsq
    w_good w_exported eq_refl ltac:(cbn; lia) ltac:(lia) ltac:(lia)) as (fs' & text & M' & y & c' & E1 & E2 & E3 & E4 & E5 & E6 & E7 & _).
  - cbn. intuition discriminate.
  - cbn. intuition discriminate.
  - discriminate.
  - exists fs', text, M', y. split; [exact E1|]. split; [exact E2|]. split; [exact E3|]. split.
    + rewrite E4. destruct y as [|? [|? ?]]; [reflexivity|cbn in E5; lia|reflexivity].
    + unfold last_break. rewrite E5, E7. specialize (E6 0%nat ltac:(cbn; lia)). cbn [w_x map List.length Nat.sub nth] in *.
      assert (A : Q2R 0 = 0) by (unfold Q2R; cbn; lra). assert (B : Q2R 366 = 366) by (unfold Q2R; cbn; lra). rewrite A in E6. rewrite B.
      unfold Rabs in *. destruct (Rcase_abs _), (Rcase_abs _); lra.
Qed.
