(** onEveryList and its sequential counterpart in Model/Server.v. *)
From Coq Require Import Strings.String Strings.Ascii.
From Verif.Lib Require Import Prelude ListAux Bytes.
From Verif.Model Require Import Element Elements Segment List Access Api Server Fanout.
From Verif.Spec Require Import FanoutSpec.
From Verif.Proof Require Import ServerP FanoutP.
Open Scope nat_scope.

Section S.
  Variable f : bytes -> entry -> outcome (lst * mres).
  (** what one list contributes *)
  Definition single (d : db) (id : bytes) (m : mres) : Prop :=
    if is_error m then success_of (as_fn f) (dget d) id = None /\
                       (error_of (as_fn f) (dget d) id = Some (X_err m) \/ (m = M_missing /\ error_of (as_fn f) (dget d) id = Some X_missing))
    else success_of (as_fn f) (dget d) id = Some m /\ error_of (as_fn f) (dget d) id = None.
  Lemma single_ext d d' id m : dget d' id = dget d id -> single d' id m -> single d id m.
  Proof. unfold single, success_of, error_of. intros ->. auto. Qed.
  Lemma seq_ok : forall ids d d' rs, NoDup ids -> every_list f d ids = Done (d', rs) ->
    map fst rs = ids /\
    (forall id, In id ids -> dget d' id = list_after (as_fn f) (dget d) id) /\
    (forall id, ~ In id ids -> dget d' id = dget d id) /\
    (forall id m, In (id, m) rs -> single d id m).
  Proof.
    induction ids as [|id ids IH]; intros d d' rs N H; cbn [every_list] in H.
    - injection H as <- <-. cbn. repeat split; intros; contradiction.
    - inversion N as [|? ? N1 N2]; subst.
      destruct (one_list d id (f id)) as [[d1 m]| | |] eqn:O; try discriminate. cbn [bind fst snd] in H.
      destruct (every_list f d1 ids) as [[d2 rs2]| | |] eqn:R; try discriminate. cbn [bind fst snd] in H. injection H as <- <-.
      destruct (IH d1 d2 rs2 N2 R) as (A1 & A2 & A3 & A4).
      assert (B : dget d1 id = list_after (as_fn f) (dget d) id /\ (forall k, k <> id -> dget d1 k = dget d k) /\ single d id m).
      { unfold one_list in O. destruct (dget d id) as [e|] eqn:G.
        - destruct (f id e) as [[l r]| | |] eqn:F; try discriminate. cbn [bind fst snd] in O. injection O as <- <-.
          repeat split.
          + rewrite dget_dput, beq_refl. unfold list_after. rewrite G. unfold as_fn. rewrite F. reflexivity.
          + intros k K. rewrite dget_dput. destruct (beq id k) eqn:Bk; [apply beq_true in Bk; congruence|reflexivity].
          + unfold single, success_of, error_of. rewrite G. unfold as_fn. rewrite F. destruct r; cbn; auto.
        - injection O as <- <-. split; [|split; [reflexivity|]].
          + unfold list_after. rewrite G. reflexivity.
          + unfold single, success_of, error_of. rewrite G. cbn. auto. }
      destruct B as (B1 & B2 & B3).
      assert (NE : forall k, In k ids -> k <> id) by (intros k K ->; contradiction).
      repeat split.
      + cbn. f_equal. exact A1.
      + intros k [<-|K].
        * rewrite (A3 id N1). exact B1.
        * rewrite (A2 k K). unfold list_after. rewrite (B2 k (NE k K)). reflexivity.
      + intros k K. rewrite A3 by (intros X; apply K; right; exact X). apply B2. intros ->. apply K. left. reflexivity.
      + intros k r [X|X]; [injection X as <- <-; exact B3|].
        apply (single_ext d d1); [|apply A4; exact X]. apply B2, NE. rewrite <- A1. apply (in_map fst) in X. exact X.
  Qed.
  Lemma f_sequential limit ids d d' rs gs s : NoDup ids -> every_list f d ids = Done (d', rs) ->
    frun (FC limit (as_fn f)) gs (finit (FC limit (as_fn f)) ids (dget d)) = Some s -> f_main s = M_ret true ->
    (forall id, f_lists s id = dget d' id) /\ map fst rs = ids /\ (forall id m, In (id, m) rs -> answered s id m).
  Proof.
    intros N H G M. destruct (seq_ok ids d d' rs N H) as (A1 & A2 & A3 & A4).
    destruct (f_result _ _ _ _ ids (dget d) N gs s G M) as (C & _). cbn [c_fn] in C.
    split; [|split; [exact A1|]].
    - intros id. destruct (in_dec (list_eq_dec Ascii.ascii_dec) id ids) as [I|I].
      + rewrite (A2 id I). apply (C id), I.
      + rewrite (A3 id I). apply (C id), I.
    - intros id m I. assert (J : In id ids) by (rewrite <- A1; apply (in_map fst) in I; exact I).
      destruct (proj1 (C id) J) as (_ & C2 & C3). pose proof (A4 id m I) as S. unfold single in S. unfold answered.
      rewrite C2, C3. exact S.
  Qed.
End S.
