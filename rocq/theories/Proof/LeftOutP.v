(** Lists of writes of which some are left out. *)
From Coq Require Import Strings.String.
From Verif.Lib Require Import Prelude ListAux ListLemmas Bytes.
From Verif.Model Require Import Element Elements Segment List Keys Storage.
From Verif.Spec Require Import StorageSpec.
From Verif.Proof Require Import StoreP.
Open Scope N_scope.

(** ** which writes are left out *)
Inductive dropped (P : ev -> Prop) : list ev -> list ev -> Prop :=
| D_nil : dropped P [] []
| D_keep e a b : dropped P a b -> dropped P (e :: a) (e :: b)
| D_drop e a b : P e -> dropped P a b -> dropped P (e :: a) b.
Lemma dropped_app P a b c d : dropped P a b -> dropped P c d -> dropped P (a ++ c) (b ++ d).
Proof. induction 1; intros K; cbn; [exact K|constructor 2; auto|constructor 3; auto]. Qed.
Lemma dropped_refl P a : dropped P a a.
Proof. induction a; [constructor|constructor 2; auto]. Qed.
Lemma dropped_incl P a b : dropped P a b -> incl b a.
Proof. induction 1 as [|e a b _ IH|e a b _ _ IH]; intros x Hx; [exact Hx|destruct Hx as [->|Hx]; [left; reflexivity|right; auto]|right; auto]. Qed.
Lemma dropped_nil P w : dropped P [] w -> w = [].
Proof. intros H. inversion H. reflexivity. Qed.
Lemma dropped_cons P e a w : dropped P (e :: a) w -> (exists w', w = e :: w' /\ dropped P a w') \/ (P e /\ dropped P a w).
Proof. intros H. inversion H; subst; eauto. Qed.
Lemma dropped_must (P : ev -> Prop) e a w : ~ P e -> dropped P (e :: a) w -> exists w', w = e :: w' /\ dropped P a w'.
Proof. intros Hn H. apply dropped_cons in H as [H|(H & _)]; [exact H|contradiction]. Qed.

(** ** stores with more in them *)
Definition le_store (a b : store) : Prop := forall k v, a k = Some v -> b k = Some v.
Definition deletes (e : ev) : Prop := match e with EDel _ _ | EMetaDel _ => True | _ => False end.
Lemma ev_le e a b : le_store a b -> le_store (ev_store e a) (ev_store e b).
Proof. intros H k v. destruct e; cbn [ev_store]; unfold put; (destruct (beq k _); [auto|apply H]). Qed.
Lemma evs_le : forall es a b, le_store a b -> le_store (evs_store es a) (evs_store es b).
Proof. induction es as [|e es IH]; intros a b H; [exact H|]. rewrite !evs_store_cons. apply IH, ev_le, H. Qed.
Lemma dropped_le es w : dropped deletes es w -> forall a b, le_store a b -> le_store (evs_store es a) (evs_store w b).
Proof.
  induction 1 as [|e es w _ IH|e es w He _ IH]; intros a b H; [exact H| |]; rewrite ?evs_store_cons; apply IH; [apply ev_le, H|].
  intros k v Hk. destruct e; try contradiction; cbn [ev_store] in Hk; unfold put in Hk; (destruct (beq k _); [discriminate|apply H, Hk]).
Qed.
