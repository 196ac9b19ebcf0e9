(** Text files with the layout of a model but perhaps a wrong table. *)
From Coq Require Import QArith List Arith ZArith String Ascii.
From Verif Require Import M_Text Spec_Loaders.
Import ListNotations.

Definition covobs_layout (content : text) (nmax order : nat) (years data : list Q) : Prop :=
  exists title params rest datas qn q1 qo, lines content = title :: params :: rest /\
    numbers params (qn :: q1 :: qo :: years) /\ (qn == inject_Z (Z.of_nat nmax))%Q /\ (qo == inject_Z (Z.of_nat order))%Q /\
    Forall2 numbers rest datas /\ data = List.concat datas.
Definition gufm1_layout (content : text) (nmax : nat) (years data : list Q) : Prop :=
  exists title rest datas qn qs, lines content = title :: rest /\
    Forall2 numbers rest datas /\ List.concat datas = qn :: qs :: years ++ data /\
    (qn == inject_Z (Z.of_nat nmax))%Q /\ (qs == inject_Z (Z.of_nat (List.length years) - 4))%Q.
Definition cals7k_layout (content : text) (nmax : nat) (years data : list Q) : Prop :=
  exists ts te qo q3 qn q5 qs, numbers_D content (ts :: te :: qo :: q3 :: qn :: q5 :: qs :: years ++ data) /\
    (qn == inject_Z (Z.of_nat nmax))%Q /\ (qs == inject_Z (Z.of_nat (List.length years) - 4))%Q.
(** The table has the wrong number of values, or the years are not in order. *)
Definition wrong_count (nmax order : nat) (years data : list Q) : Prop :=
  List.length data <> ((List.length years - order) * (nmax * (nmax + 2)))%nat.
Definition out_of_order (years : list Q) : Prop := exists i, (i + 1 < List.length years)%nat /\ (nth (i + 1) years 0 < nth i years 0)%Q.
