(** What a restriction string grants. *)
From Coq Require Import Strings.String Strings.Ascii.
From Verif.Lib Require Import Prelude.
Open Scope N_scope.

(** [p] is one of the comma separated parts of [v] *)
Definition part (v p : list ascii) : Prop :=
  ~ In ","%char p /\ exists a b, v = a ++ p ++ b /\ (a = [] \/ exists a', a = a' ++ [","%char]) /\ (b = [] \/ exists b', b = ","%char :: b').

(** UTF-8 of a code point below 2^16 *)
Definition utf8 (c : N) : list ascii :=
  map ascii_of_N (if c <? 128 then [c]
                  else if c <? 2048 then [192 + c / 64; 128 + c mod 64]
                  else [224 + c / 4096; 128 + (c / 64) mod 64; 128 + c mod 64]).
(** the Unicode White_Space code points *)
Definition white (c : N) : Prop :=
  9 <= c <= 13 \/ c = 32 \/ c = 0x85 \/ c = 0xA0 \/ c = 0x1680 \/ 0x2000 <= c <= 0x200A \/
  c = 0x2028 \/ c = 0x2029 \/ c = 0x202F \/ c = 0x205F \/ c = 0x3000.
Inductive blank : list ascii -> Prop :=
| blank_nil : blank []
| blank_cons c s : white c -> blank s -> blank (utf8 c ++ s).
(** [t] is [s] without leading and trailing blanks *)
Definition trimmed (s t : list ascii) : Prop :=
  exists a b, s = a ++ t ++ b /\ blank a /\ blank b /\
    (forall c x, white c -> t <> utf8 c ++ x) /\ (forall c x, white c -> t <> x ++ utf8 c).
(** [s] is a decimal numeral for [v] *)
Inductive decimal : list ascii -> N -> Prop :=
| dec_one d : d <= 9 -> decimal [ascii_of_N (48 + d)] d
| dec_more s v d : decimal s v -> d <= 9 -> decimal (s ++ [ascii_of_N (48 + d)]) (10 * v + d).

Definition names_list (v id : list ascii) : Prop := exists p, part v p /\ trimmed p id.
Definition names_element (v : list ascii) (id : N) : Prop := exists p t, part v p /\ trimmed p t /\ decimal t id.
