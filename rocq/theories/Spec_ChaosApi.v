(** Vocabulary of the statements about the CHAOS call: the contribution of a
    source is what the method of that source returns for the same arguments. *)
From Coq Require Import Reals List Arith String.
From Verif Require Import M_Prelude M_ND M_PP M_SynthArr M_Model M_Chaos.
Import ListNotations.
Open Scope R_scope.

Definition contribution (E : env) (c : chaos) (time radius theta phi : nd R) (rc_e rc_i : option (nd R)) (nmax_static : option nat)
    (name : string) : result ofield :=
  if (name =? "tdep")%string then synth_values_tdep E c time radius theta phi None None None XNone
  else if (name =? "static")%string then
    synth_values_static E c radius theta phi (Some (match nmax_static with None => 85%nat | Some n => n end)) None None XNone
  else if (name =? "gsm")%string then
    bind (synth_values_gsm E c time radius theta phi None (Some "all"%string) None) (fun F => Ok (lift_field F))
  else bind (synth_values_sm E c time radius theta phi rc_e rc_i None (Some "all"%string) None) (fun F => Ok (lift_field F)).

(** One component of the contribution, at index x of the result. *)
Definition part (E : env) (c : chaos) (time radius theta phi : nd R) (rc_e rc_i : option (nd R)) (nmax_static : option nat)
    (name : string) (comp : ofield -> list nat -> option R) (x : list nat) : option R :=
  match contribution E c time radius theta phi rc_e rc_i nmax_static name with Ok F => comp F (bidx (o_sh F) x) | Err _ => None end.
