(** What a list file is worth. *)
From Coq Require Import Strings.Byte Strings.String.
From Verif.Lib Require Import Prelude.
From Verif.Model Require Import Codec Manager.
From Verif.Spec Require Import CodecSpec.
Open Scope N_scope.

Notation bytes := (list byte).
(** zstd: decompressing gives back what was compressed, and from a blob cut short the
    decompressor delivers no byte that was not there *)
Definition compressor (enc zdec : bytes -> bytes) : Prop :=
  (forall x, zdec (enc x) = x) /\ (forall x b c, enc x = b ++ c -> exists d, x = zdec b ++ d).

(** lists that can exist together: every field within its width, each ID once *)
Definition collection (ls : list wlist) : Prop := Forall list_fits ls /\ NoDup (map wl_id ls).
(** the same lists in any order, nil metadata maps taken for empty ones *)
Definition same_lists (ls m : list wlist) : Prop := Permutation (map with_map ls) m.

(** a blob that was written by a save of [ls] *)
Definition file_of (enc : bytes -> bytes) (ls : list wlist) (g : got) : Prop := g = Got (save enc ls).
Definition intact (enc : bytes -> bytes) (g : got) : Prop := exists ls, collection ls /\ file_of enc ls g.
(** a blob that can be read and decodes to the lists [m] *)
Definition readable (zdec fdec : bytes -> bytes) (g : got) (m : list wlist) : Prop :=
  exists b, g = Got b /\ forall old, load zdec fdec old b = (None, m).

(** successive saves, each possibly with a backup, that run to the end *)
Inductive saves (enc : bytes -> bytes) (ok : outcome -> Prop) : files -> files -> Prop :=
| saves_nil : forall f, saves enc ok f f
| saves_cons : forall f ls b o1 o2 f' f'', collection ls -> ok o1 -> ok o2 ->
    In f' (save_states enc ls b o1 o2 f) -> saves enc ok f' f'' -> saves enc ok f f''.

(** the saver after [n] ticks: its counter *)
Fixpoint counter (every : Z) (n : nat) : Z :=
  match n with O => 0 | S n => tick_last (tick_backup true every (counter every n)) (counter every n) end%Z.
