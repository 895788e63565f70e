(** What queries must answer, in terms of a ranking [r] (Spec/RankSpec.v) only. *)
From Verif.Lib Require Import Prelude.
From Verif.Model Require Import Element Segment.
From Verif.Spec Require Import RankSpec.
Open Scope N_scope.

(** [re] reports its element with the true number of elements above and below. *)
Definition true_rank (r : list element) (re : ranked_element) : Prop :=
  exists i, nth_error r i = Some (re_elem re) /\
            re_top re = Z.of_nat i /\ re_bottom re = (Z.of_nat (length r) - 1 - Z.of_nat i)%Z.

(** neighbours within [radius], nearest first *)
Definition true_neighbours (r : list element) (radius : nat) (re : ranked_element) : Prop :=
  forall i, re_top re = Z.of_nat i ->
    re_below re = firstn radius (skipn (S i) r) /\
    re_above re = firstn radius (rev (firstn i r)).

(** last-writer-wins map from ID to element *)
Definition smap := N -> option element.
Definition sempty : smap := fun _ => None.
Definition sput (m : smap) (e : element) : smap := fun k => if k =? e_id e then Some e else m k.
Definition sputs (m : smap) (l : list element) : smap := fold_left sput l m.
Definition sdel (m : smap) (ids : list N) : smap := fun k => if existsb (N.eqb k) ids then None else m k.
Definition sin (m : smap) (e : element) : Prop := m (e_id e) = Some e.
