(** Specification vocabulary for SHC files. *)
From Coq Require Import List ZArith QArith Qabs Ascii String.
Import ListNotations.

(** q is x rounded to eight decimals. *)
Definition eight_decimals (x q : Q) : Prop :=
  exists k : Z, (q == k # 100000000)%Q /\ (Qabs (q - x) <= 1 # 200000000)%Q.

(** The header consists of lines that start with '#'. *)
Definition comment_lines (header : list ascii) : Prop :=
  exists ls : list (list ascii),
    header = flat_map (fun l => ("#"%char :: l) ++ ["010"%char])%list ls /\
    Forall (fun l => ~ In "010"%char l) ls.

(** The documented meaning of the arguments nmin and nmax: defaults 1 and the
    largest degree whose coefficients are all among the [cols] given. *)
Definition first_degree (nmin : option Z) (a : nat) : Prop :=
  match nmin with None => a = 1%nat | Some n => n = Z.of_nat a end.
Definition last_degree (cols : nat) (nmax : option Z) (b : nat) : Prop :=
  match nmax with
  | None => (b * (b + 2) <= cols)%nat /\ (cols < (b + 1) * (b + 3))%nat
  | Some n => n = Z.of_nat b
  end.
