(** Lemmas about the stable sort, sortedness and uniqueness of sorted lists. *)
From Verif.Lib Require Import Prelude ListAux.

Section S.
  Context {A : Type} (lt : A -> A -> bool).

  Definition lep (x y : A) : Prop := lt y x = false.
  Definition ltp (x y : A) : Prop := lt x y = true.

  Lemma insert_by_perm x l : Permutation (insert_by lt x l) (x :: l).
  Proof.
    induction l as [|y r IH]; cbn; [reflexivity|].
    destruct (lt y x); [|reflexivity].
    rewrite IH. apply perm_swap.
  Qed.

  Lemma sort_by_perm l : Permutation (sort_by lt l) l.
  Proof.
    induction l as [|y r IH]; cbn; [reflexivity|].
    rewrite insert_by_perm, IH. reflexivity.
  Qed.

  Lemma sort_by_length l : length (sort_by lt l) = length l.
  Proof. apply Permutation_length, sort_by_perm. Qed.

  Lemma sort_by_In x l : In x (sort_by lt l) <-> In x l.
  Proof. split; apply Permutation_in; [|symmetry]; apply sort_by_perm. Qed.

  Section Weak.
    Hypothesis lt_asym : forall x y, lt x y = true -> lt y x = false.
    Hypothesis le_trans : forall x y z, lt y x = false -> lt z y = false -> lt z x = false.

    Lemma insert_by_sorted x l :
      StronglySorted lep l -> StronglySorted lep (insert_by lt x l).
    Proof.
      induction 1 as [|y r Hr IH Hy]; cbn; [repeat constructor|].
      destruct (lt y x) eqn:E.
      - constructor; [exact IH|].
        apply Forall_forall; intros z Hz.
        eapply Permutation_in in Hz; [|apply insert_by_perm].
        destruct Hz as [->|Hz]; [exact (lt_asym _ _ E)|].
        rewrite Forall_forall in Hy; auto.
      - constructor; [constructor; assumption|].
        constructor; [exact E|].
        rewrite Forall_forall in Hy |- *; intros z Hz.
        exact (le_trans _ _ _ E (Hy z Hz)).
    Qed.

    Lemma sort_by_sorted l : StronglySorted lep (sort_by lt l).
    Proof. induction l; cbn; [constructor|]. apply insert_by_sorted; assumption. Qed.

    Lemma is_sorted_by_spec l : is_sorted_by lt l = true <-> StronglySorted lep l.
    Proof.
      induction l as [|x r IH]; cbn; [split; [constructor|reflexivity]|].
      destruct r as [|y r']; [split; [repeat constructor|reflexivity]|].
      rewrite andb_true_iff, IH, negb_true_iff. split.
      - intros [E H]. constructor; [exact H|]. constructor; [exact E|].
        inv H. rewrite Forall_forall in *; intros z Hz.
        exact (le_trans _ _ _ E (H3 z Hz)).
      - intros H; inv H. inv H3. split; assumption.
    Qed.
  End Weak.

  Lemma ltp_sorted_lep l :
    (forall x y, lt x y = true -> lt y x = false) ->
    StronglySorted ltp l -> StronglySorted lep l.
  Proof.
    intros As; induction 1 as [|x r _ IH Hx]; constructor; [exact IH|].
    eapply Forall_impl; [|exact Hx]. intros z; apply As.
  Qed.
End S.

(** Uniqueness of strictly sorted lists with the same members. *)
Lemma sorted_unique {A} (R : A -> A -> Prop) :
  (forall x, ~ R x x) -> (forall x y, R x y -> R y x -> False) ->
  forall l1 l2, StronglySorted R l1 -> StronglySorted R l2 ->
  (forall x, In x l1 <-> In x l2) -> l1 = l2.
Proof.
  intros Irr As l1; induction l1 as [|x r1 IH]; intros l2 H1 H2 Hm.
  - destruct l2 as [|y r2]; [reflexivity|]. exfalso. apply (proj2 (Hm y)); left; reflexivity.
  - destruct l2 as [|y r2]; [exfalso; apply (proj1 (Hm x)); left; reflexivity|].
    inv H1; inv H2. rewrite Forall_forall in *.
    assert (x = y) as <-.
    { destruct (proj1 (Hm x) (or_introl eq_refl)) as [E|Hx]; [congruence|].
      destruct (proj2 (Hm y) (or_introl eq_refl)) as [E|Hy]; [congruence|].
      exfalso. eapply As; eauto. }
    f_equal. apply IH; auto.
    intros z; split; intros Hz.
    + destruct (proj1 (Hm z) (or_intror Hz)) as [E|]; [|assumption].
      subst z; exfalso; eapply Irr; eauto.
    + destruct (proj2 (Hm z) (or_intror Hz)) as [E|]; [|assumption].
      subst z; exfalso; eapply Irr; eauto.
Qed.

Lemma StronglySorted_app {A} (R : A -> A -> Prop) l1 l2 :
  StronglySorted R (l1 ++ l2) <->
  StronglySorted R l1 /\ StronglySorted R l2 /\ (forall x y, In x l1 -> In y l2 -> R x y).
Proof.
  induction l1 as [|x r IH]; cbn.
  - split; [intros H; split; [constructor|]; split; [exact H|]; contradiction|tauto].
  - split.
    + intros H; inv H. apply IH in H2 as (Ha & Hb & Hc).
      rewrite Forall_forall in H3. split; [constructor; [exact Ha|]|split; [exact Hb|]].
      * apply Forall_forall; intros z Hz. apply H3, in_or_app; auto.
      * intros a b [<-|Ha'] Hb'; [apply H3, in_or_app; auto|auto].
    + intros (H1 & H2 & H3). inv H1. constructor.
      * apply IH; repeat split; auto.
      * rewrite Forall_forall in *; intros z Hz. apply in_app_or in Hz as [Hz|Hz]; auto.
Qed.

Lemma StronglySorted_filter {A} (R : A -> A -> Prop) p l :
  StronglySorted R l -> StronglySorted R (filter p l).
Proof.
  induction 1 as [|x r _ IH Hx]; cbn; [constructor|].
  destruct (p x); [|exact IH]. constructor; [exact IH|].
  rewrite Forall_forall in *; intros z Hz. apply filter_In in Hz as [Hz _]; auto.
Qed.

Lemma StronglySorted_skipn {A} (R : A -> A -> Prop) n l :
  StronglySorted R l -> StronglySorted R (skipn n l).
Proof.
  revert l; induction n; intros l H; [exact H|]. destruct l; [exact H|].
  cbn. inv H. auto.
Qed.

Lemma StronglySorted_firstn {A} (R : A -> A -> Prop) n l :
  StronglySorted R l -> StronglySorted R (firstn n l).
Proof.
  intros H. rewrite <- (firstn_skipn n l) in H. apply StronglySorted_app in H. tauto.
Qed.

Lemma StronglySorted_impl_In {A} (R S : A -> A -> Prop) l :
  (forall x y, In x l -> In y l -> R x y -> S x y) ->
  StronglySorted R l -> StronglySorted S l.
Proof.
  intros H HS. induction HS as [|x r _ IH Hx]; constructor.
  - apply IH. intros; apply H; cbn; auto.
  - rewrite Forall_forall in *; intros; apply H; cbn; auto.
Qed.

Lemma StronglySorted_nth {A} (R : A -> A -> Prop) l i j x y :
  StronglySorted R l -> i < j -> nth_error l i = Some x -> nth_error l j = Some y -> R x y.
Proof.
  intros H; revert i j; induction H as [|z r _ IH Hz]; intros i j Hij Hi Hj.
  - destruct i; discriminate.
  - destruct j as [|j]; [lia|]. destruct i as [|i]; cbn in *.
    + inv Hi. rewrite Forall_forall in Hz. apply Hz. eapply nth_error_In; eauto.
    + apply (IH i j); auto; lia.
Qed.

Lemma StronglySorted_NoDup {A} (R : A -> A -> Prop) l :
  (forall x, ~ R x x) -> StronglySorted R l -> NoDup l.
Proof.
  intros Irr; induction 1 as [|x r _ IH Hx]; constructor; [|exact IH].
  intros Hin. rewrite Forall_forall in Hx. exact (Irr x (Hx x Hin)).
Qed.

Lemma StronglySorted_map {A B} (f : A -> B) (R : A -> A -> Prop) (S : B -> B -> Prop) l :
  (forall x y, In x l -> In y l -> R x y -> S (f x) (f y)) ->
  StronglySorted R l -> StronglySorted S (map f l).
Proof.
  intros H HS. induction HS as [|x r _ IH Hx]; cbn; constructor.
  - apply IH. intros; apply H; cbn; auto.
  - rewrite Forall_forall in *. intros z Hz. apply in_map_iff in Hz as (w & <- & Hw).
    apply H; cbn; auto.
Qed.
