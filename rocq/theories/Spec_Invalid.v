(** Vocabulary for the exceptions of invalid calls. *)
From Coq Require Import Reals List Arith ZArith QArith String.
From Verif Require Import M_Text M_Chaos Spec_Chaos Spec_Loaders.
Import ListNotations.

(** The sources that are evaluated before s, among those listed. *)
Fixpoint before (s : string) (l : list string) : list string :=
  match l with [] => [] | x :: r => if (s =? x)%string then [] else x :: before s r end.
Definition listed_before (s : string) (l : list string) : list string :=
  filter (fun x => existsb (String.eqb x) (before s all_sources)) l.

(** Files whose first numbers, read before anything else, are too few: CovObs
    needs three on the second line, gufm1 two after the first line, CALS7K
    seven. *)
Definition covobs_truncated (content : text) : Prop :=
  (List.length (lines content) < 2)%nat \/
  exists title params rest qs, lines content = title :: params :: rest /\ numbers params qs /\ (List.length qs < 3)%nat.
Definition gufm1_truncated (content : text) : Prop :=
  lines content = [] \/
  exists title rest datas, lines content = title :: rest /\ Forall2 numbers rest datas /\ (List.length (List.concat datas) < 2)%nat.
Definition cals7k_truncated (content : text) : Prop :=
  exists qs, numbers_D content qs /\ (List.length qs < 7)%nat.
