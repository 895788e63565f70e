(** What a list of hosts says. *)
From Coq Require Import Strings.String Strings.Ascii.
From Verif.Lib Require Import Prelude.
From Verif.Spec Require Import AccessSpec.
Open Scope Z_scope.

Fixpoint join (sep : ascii) (l : list (list ascii)) : list ascii :=
  match l with [] => [] | [x] => x | x :: r => x ++ sep :: join sep r end.
(** [l]: what is between the separators of [s] *)
Definition pieces (sep : ascii) (s : list ascii) (l : list (list ascii)) : Prop :=
  l <> [] /\ s = join sep l /\ forall p, In p l -> ~ In sep p.
(** a number, maybe with a plus sign *)
Definition numeral (q : list ascii) (v : N) : Prop := decimal q v \/ exists r, q = "+"%char :: r /\ decimal r v.
(** it begins with a number of more than 64 bits *)
Definition too_long (q : list ascii) : Prop := exists x y v, q = x ++ y /\ numeral x v /\ (2 ^ 64 <= v)%N.
(** the host of one piece: the name is what is before the first colon, without blanks around it; the port is what is
    up to the next colon, if it is a positive number, and else the default *)
Definition host_spec (default : Z) (piece : list ascii) (h : list ascii * Z) : Prop :=
  exists n qs, pieces ":"%char piece (n :: qs) /\ trimmed n (fst h) /\
    match qs with
    | [] => snd h = default
    | q :: _ =>
      (exists v, numeral q v /\ (0 < v)%N /\ snd h = Z.min (Z.of_N v) (2 ^ 63 - 1)) \/
      (too_long q /\ snd h = 2 ^ 63 - 1) \/
      (~ too_long q /\ (forall v, numeral q v -> v = 0%N) /\ snd h = default)
    end.
