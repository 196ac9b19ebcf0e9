(** Paths: directory, file name, name without extension. *)
From Coq Require Import List Ascii.
Import ListNotations.

(** p is the file f in the directory d (d is empty or ends with a slash). *)
Definition in_directory (p d f : list ascii) : Prop :=
  p = (d ++ f)%list /\ (d = [] \/ exists d', d = (d' ++ ["/"%char])%list) /\ ~ In "/"%char f.

(** s is the file name f without its extension: what stands before the last dot,
    unless nothing but dots stands there; then the whole name. *)
Definition file_stem (f s : list ascii) : Prop :=
  (exists e, f = (s ++ "."%char :: e)%list /\ ~ In "."%char e /\ exists c, In c s /\ c <> "."%char) \/
  (s = f /\ forall u v, f = (u ++ "."%char :: v)%list -> ~ In "."%char v -> forall c, In c u -> c = "."%char).

(** The text t of a file with the characters raw: the line ends \n, \r\n and \r
    are all the character \n in the text. *)
Inductive text_of : list ascii -> list ascii -> Prop :=
| text_end : text_of [] []
| text_crlf r t : text_of r t -> text_of ("013"%char :: "010"%char :: r) ("010"%char :: t)
| text_cr r t : (forall r', r <> "010"%char :: r') -> text_of r t -> text_of ("013"%char :: r) ("010"%char :: t)
| text_char c r t : c <> "013"%char -> text_of r t -> text_of (c :: r) (c :: t).
