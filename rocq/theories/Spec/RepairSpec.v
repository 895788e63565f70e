(** What a request to verify and repair a damaged list must do. *)
From Coq Require Import Strings.String Strings.Byte.
From Verif.Lib Require Import Prelude ListAux Bytes.
From Verif.Model Require Import Element Elements Segment List Access Server.
From Verif.Spec Require Import RankSpec QuerySpec HistorySpec AnswerSpec.
Open Scope N_scope.

(** what is assumed of a damaged list: sensible sizes, and elements with values in range *)
Definition repairable (v : env) (l : lst) : Prop :=
  (l_merge l < l_split l)%nat /\ build_sizes (l_merge l) (l_split l) (v_want v) (length (stored_in l)) /\
  (forall x, In x (stored_in l) -> stored x) /\ tick (v_seg v) /\ v_ns v <> ""%string /\ v_ni v <> ""%string /\
  N.of_nat (length (stored_in l)) < max_u32.
(** valid, with nothing but elements of before, the newest of every ID *)
Definition mended (l l' : lst) : Prop :=
  verify l' = true /\ verify_elements l' = true /\
  (forall x, In x (stored_in l') -> In x (stored_in l)) /\
  (forall x, In x (stored_in l) -> exists y, In y (stored_in l') /\ e_id y = e_id x /\ e_upd x <= e_upd y).

