(** Lemmas about concurrent loads of the elements of a segment. *)
From Verif.Lib Require Import Prelude ListAux.
From Verif.Model Require Import Loader.
From Verif.Spec Require Import LoaderSpec.
Open Scope nat_scope.

Lemma upd_at_same {A} (x : A) : forall l i, i < length l -> nth_error (upd_nth i (fun _ => x) l) i = Some x.
Proof.
  induction l as [|a l IH]; intros [|i]; simpl; intros; try lia; [reflexivity|apply IH; lia].
Qed.
Lemma upd_at_other {A} (x : A) : forall l i j, i <> j -> nth_error (upd_nth i (fun _ => x) l) j = nth_error l j.
Proof.
  induction l as [|a l IH]; intros [|i] [|j] NE; simpl; try reflexivity; try lia. apply IH; lia.
Qed.
Lemma upd_at_len {A} (x : A) : forall l i, length (upd_nth i (fun _ => x) l) = length l.
Proof.
  induction l as [|a l IH]; intros [|i]; simpl; try reflexivity. f_equal; apply IH.
Qed.
Lemma nth_some_lt {A} (l : list A) i x : nth_error l i = Some x -> i < length l.
Proof.
  intros H; apply nth_error_Some; congruence.
Qed.
Lemma upd_at_inv {A} (x : A) l i j y : nth_error (upd_nth i (fun _ => x) l) j = Some y -> (i = j /\ y = x) \/ (i <> j /\ nth_error l j = Some y).
Proof.
  intros H. destruct (Nat.eq_dec i j) as [E|NE].
  - left. split; [exact E|]. subst j. rewrite upd_at_same in H; [congruence|].
    rewrite <- (upd_at_len x l i). eapply nth_some_lt; exact H.
  - right. split; [exact NE|]. rewrite upd_at_other in H by exact NE. exact H.
Qed.

(** what holds of a call at its place; the parts about values need [N]: nothing has panicked *)
Definition fit (N : Prop) (c : xcfg) (k : xkind) (p : xpc) : Prop :=
  match p with
  | TWait n => exists o, nth_error (x_loads c) n = Some o /\ (o = None -> x_loading c = Some n) /\ (N -> (forall v, o = Some (XVal v) -> v = x_store c) /\ o <> Some XPanic)
  | TGet n => x_loading c = Some n /\ nth_error (x_loads c) n = Some None
  | TShut n r => x_loading c = Some n /\ nth_error (x_loads c) n = Some None /\ (N -> (forall v, r = XVal v -> v = x_store c) /\ r <> XPanic)
  | TCache v | TUse v => N -> v = x_store c
  | TSaved v => v = x_store c /\ k = XWrite
  | TDone r => N -> r <> XPanic
  | _ => True
  end.
Record xinv (N : Prop) (c : xcfg) : Prop := mkXI {
  xi_excl : forall i j k1 p1 p2, i <> j -> nth_error (x_thr c) i = Some (XWrite, p1) -> nth_error (x_thr c) j = Some (k1, p2) -> x_holds p1 = true -> x_holds p2 = true -> False;
  xi_fit : forall i k p, nth_error (x_thr c) i = Some (k, p) -> fit N c k p;
  xi_loader : forall n, x_loading c = Some n -> exists i k p, nth_error (x_thr c) i = Some (k, p) /\ loads_now p n;
  xi_once : forall i j k1 k2 p1 p2 n m, nth_error (x_thr c) i = Some (k1, p1) -> nth_error (x_thr c) j = Some (k2, p2) -> loads_now p1 n -> loads_now p2 m -> i = j;
  xi_cache : N -> forall v, x_cache c = Some v -> v = x_store c \/ exists i k, nth_error (x_thr c) i = Some (k, TSaved (x_store c)) }.

Lemma free_holds k l : x_free k l = true -> forall i k1 p1, nth_error l i = Some (k1, p1) -> x_holds p1 = true -> k = XRead /\ k1 = XRead.
Proof.
  unfold x_free. rewrite forallb_forall. intros F i k1 p1 E H.
  specialize (F _ (nth_error_In _ _ E)). cbn [fst snd] in F. rewrite H in F. cbn [negb orb] in F.
  destruct k, k1; try discriminate; split; reflexivity.
Qed.
Lemma not_free k l : x_free k l = false -> exists i k1 p1, nth_error l i = Some (k1, p1) /\ x_holds p1 = true.
Proof.
  unfold x_free. induction l as [|[k1 p1] l IH]; cbn [forallb fst snd]; [discriminate|].
  intros H. destruct (x_holds p1) eqn:E.
  - exists 0, k1, p1; split; [reflexivity|exact E].
  - cbn [negb orb andb] in H. destruct (IH H) as (i & k2 & p2 & A & B). exists (S i), k2, p2; split; assumption.
Qed.

Lemma start_inv N v : xinv N (xstart v).
Proof.
  constructor; cbn [xstart x_thr x_loading x_cache x_store x_loads].
  - intros i j k1 p1 p2 _ H. destruct i; discriminate.
  - intros i k p H. destruct i; discriminate.
  - discriminate.
  - intros i j k1 k2 p1 p2 n m H. destruct i; discriminate.
  - discriminate.
Qed.

Lemma fit_free N c c' k p : x_holds p = false -> fit N c k p -> fit N c' k p.
Proof.
  destruct p as [| | |n|n|n r|v|v|v|r]; cbn [x_holds]; try discriminate; intros _ F; exact F.
Qed.
Lemma loads_hold p n : loads_now p n -> x_holds p = true.
Proof.
  intros [E|[r E]]; subst p; reflexivity.
Qed.
Lemma loads_fit N c k p n : fit N c k p -> loads_now p n -> x_loading c = Some n /\ nth_error (x_loads c) n = Some None.
Proof.
  intros F [E|[r E]]; subst p; cbn [fit] in F; destruct F as [A B]; [split; assumption|]. split; [exact A|apply B].
Qed.

Lemma inv_upd N c i k p0 p st ca lo ls :
  xinv N c -> nth_error (x_thr c) i = Some (k, p0) ->
  (x_holds p = true -> x_holds p0 = true \/ x_free k (x_thr c) = true) ->
  fit N (mkX st ca lo ls (x_at c i k p)) k p ->
  (forall j k1 p1, j <> i -> nth_error (x_thr c) j = Some (k1, p1) -> fit N c k1 p1 -> fit N (mkX st ca lo ls (x_at c i k p)) k1 p1) ->
  (forall n, lo = Some n -> loads_now p n \/ (lo = x_loading c /\ ~ loads_now p0 n)) ->
  (forall n, loads_now p n -> (exists m, loads_now p0 m) \/ x_loading c = None) ->
  (N -> forall v, ca = Some v -> v = st \/ p = TSaved st \/ exists j k1, j <> i /\ nth_error (x_thr c) j = Some (k1, TSaved st)) ->
  xinv N (mkX st ca lo ls (x_at c i k p)).
Proof.
  intros V E Hh Hf Hr Hl Ho Hc. pose proof (nth_some_lt _ _ _ E) as LT.
  constructor; cbn [x_thr x_loading x_cache x_store x_loads]; unfold x_at.
  - intros a b k1 p1 p2 NE A B H1 H2.
    destruct (upd_at_inv _ _ _ _ _ A) as [[E1 Q1]|[N1 A1]]; destruct (upd_at_inv _ _ _ _ _ B) as [[E2 Q2]|[N2 B2]].
    + congruence.
    + injection Q1 as Q1 Q1'. rewrite Q1' in H1. destruct (Hh H1) as [P|P].
      * eapply (xi_excl N c V i b k1 p0 p2 N2); [rewrite E, Q1; reflexivity|exact B2|exact P|exact H2].
      * destruct (free_holds _ _ P _ _ _ B2 H2) as [X _]. congruence.
    + injection Q2 as Q2 Q2'. rewrite Q2' in H2. destruct (Hh H2) as [P|P].
      * assert (NE2 : a <> i) by congruence.
        eapply (xi_excl N c V a i k p1 p0 NE2); [exact A1|exact E|exact H1|exact P].
      * destruct (free_holds _ _ P _ _ _ A1 H1) as [_ X]. discriminate.
    + eapply (xi_excl N c V a b k1 p1 p2 NE); eassumption.
  - intros j k1 p1 J. destruct (upd_at_inv _ _ _ _ _ J) as [[E1 Q1]|[N1 J1]].
    + injection Q1 as Q1 Q1'. rewrite Q1, Q1'. exact Hf.
    + apply (Hr j); [congruence|exact J1|]. eapply xi_fit; [exact V|exact J1].
  - intros n L. destruct (Hl n L) as [P|[P Q]].
    + exists i, k, p. split; [apply upd_at_same; exact LT|exact P].
    + rewrite P in L. destruct (xi_loader N c V n L) as (j & k1 & p1 & J & LN).
      assert (j <> i) as NE. { intros X. rewrite X in J. rewrite E in J. injection J as _ J. rewrite J in Q. contradiction. }
      exists j, k1, p1. split; [rewrite upd_at_other by congruence; exact J|exact LN].
  - intros a b k1 k2 p1 p2 n m A B LA LB.
    destruct (upd_at_inv _ _ _ _ _ A) as [[E1 Q1]|[N1 A1]]; destruct (upd_at_inv _ _ _ _ _ B) as [[E2 Q2]|[N2 B2]].
    + congruence.
    + injection Q1 as Q1 Q1'. rewrite Q1' in LA. destruct (Ho n LA) as [[m' P]|P].
      * rewrite <- E1. eapply (xi_once N c V i b); eassumption.
      * destruct (loads_fit _ _ _ _ _ (xi_fit N c V _ _ _ B2) LB). congruence.
    + injection Q2 as Q2 Q2'. rewrite Q2' in LB. destruct (Ho m LB) as [[m' P]|P].
      * rewrite <- E2. eapply (xi_once N c V a i); eassumption.
      * destruct (loads_fit _ _ _ _ _ (xi_fit N c V _ _ _ A1) LA). congruence.
    + eapply (xi_once N c V a b); eassumption.
  - intros HN v Q. destruct (Hc HN v Q) as [P|[P|(j & k1 & NE & J)]].
    + left; exact P.
    + right. exists i, k. rewrite <- P. apply upd_at_same; exact LT.
    + right. exists j, k1. rewrite upd_at_other by congruence. exact J.
Qed.

(** a step that changes only the place of a call, and is no load *)
Lemma inv_move N c i k p0 p :
  xinv N c -> nth_error (x_thr c) i = Some (k, p0) ->
  (x_holds p = true -> x_holds p0 = true \/ x_free k (x_thr c) = true) ->
  fit N c k p ->
  (forall n, loads_now p0 n -> loads_now p n) -> (forall n, loads_now p n -> loads_now p0 n) ->
  (forall v, p0 <> TSaved v) ->
  xinv N (mkX (x_store c) (x_cache c) (x_loading c) (x_loads c) (x_at c i k p)).
Proof.
  intros V E Hh Hf H1 H2 NS.
  apply (inv_upd N c i k p0 p (x_store c) (x_cache c) (x_loading c) (x_loads c) V E Hh).
  - exact Hf.
  - intros j k1 p1 _ _ F. exact F.
  - intros n L. destruct (xi_loader N c V n L) as (j & k1 & p1 & J & LN).
    destruct (Nat.eq_dec j i) as [Q|NE].
    + left. rewrite Q, E in J. injection J as _ J. rewrite <- J in LN. apply H1, LN.
    + right. split; [reflexivity|]. intros X. apply NE. exact (xi_once N c V _ _ _ _ _ _ _ _ J E LN X).
  - intros n L. left. exists n. apply H2, L.
  - intros HN v Q. destruct (xi_cache N c V HN v Q) as [P|(j & k1 & J)]; [left; exact P|].
    right; right. exists j, k1. split; [|exact J]. intros X. rewrite X, E in J. injection J as _ J. exact (NS _ J).
Qed.

Ltac noload := let n := fresh in let X := fresh in let Y := fresh in intros n [X|[Y X]]; try discriminate X.

Lemma inv_come N c k : xinv N c -> xinv N (mkX (x_store c) (x_cache c) (x_loading c) (x_loads c) (x_thr c ++ [(k, TWant)])).
Proof.
  intros V.
  assert (NA : forall i k1 p1, nth_error (x_thr c ++ [(k, TWant)]) i = Some (k1, p1) -> nth_error (x_thr c) i = Some (k1, p1) \/ p1 = TWant).
  { intros i k1 p1 J. destruct (Nat.lt_ge_cases i (length (x_thr c))) as [L|L].
    - rewrite nth_error_app1 in J by exact L. left; exact J.
    - rewrite nth_error_app2 in J by exact L. right. destruct (i - length (x_thr c)) as [|[|q]]; cbn [nth_error] in J; try discriminate J. congruence. }
  constructor; cbn [x_thr x_loading x_cache x_store x_loads].
  - intros i j k1 p1 p2 NE A B H1 H2. destruct (NA _ _ _ A) as [A'|A']; [|rewrite A' in H1; discriminate].
    destruct (NA _ _ _ B) as [B'|B']; [|rewrite B' in H2; discriminate]. eapply (xi_excl N c V i j); eassumption.
  - intros i k1 p1 J. destruct (NA _ _ _ J) as [J'|J']; [exact (xi_fit N c V _ _ _ J')|]. rewrite J'. exact Logic.I.
  - intros n L. destruct (xi_loader N c V n L) as (j & k1 & p1 & J & LN). exists j, k1, p1. split; [|exact LN].
    rewrite nth_error_app1; [exact J|]. eapply nth_some_lt; exact J.
  - intros i j k1 k2 p1 p2 n m A B LA LB.
    destruct (NA _ _ _ A) as [A'|A']; [|rewrite A' in LA; destruct LA as [X|[r X]]; discriminate X].
    destruct (NA _ _ _ B) as [B'|B']; [|rewrite B' in LB; destruct LB as [X|[r X]]; discriminate X].
    eapply (xi_once N c V i j); eassumption.
  - intros HN v Q. destruct (xi_cache N c V HN v Q) as [P|(j & k1 & J)]; [left; exact P|].
    right. exists j, k1. rewrite nth_error_app1; [exact J|]. eapply nth_some_lt; exact J.
Qed.

Lemma step_inv (N : Prop) cached c x c' : (N -> no_panic x) -> xinv N c -> xstep cached c x = Some c' -> xinv N c'.
Proof.
  intros HP V S. destruct x as [k| |i|i|i|i v0]; cbn [xstep] in S.
  - injection S as <-. apply inv_come, V.
  - injection S as <-. destruct V as [a b d e f]. constructor; cbn [x_thr x_loading x_cache x_store x_loads]; try assumption. discriminate.
  - destruct (nth_error (x_thr c) i) as [[k p]|] eqn:E; [|discriminate].
    pose proof (xi_fit N c V _ _ _ E) as F.
    destruct p as [| | |n|n|n r|v|v|v|r]; cbn [fit] in F.
    + destruct (x_free k (x_thr c)) eqn:EF; [|discriminate]. injection S as <-.
      eapply inv_move; [exact V|exact E|intros _; right; exact EF|exact Logic.I|noload|noload|discriminate].
    + destruct (x_cache c) as [v|] eqn:EC; injection S as <-.
      * eapply inv_move; [exact V|exact E|intros _; left; reflexivity| |noload|noload|discriminate].
        cbn [fit]. intros HN. destruct (xi_cache N c V HN v EC) as [P|(j & k1 & J)]; [exact P|].
        exfalso. destruct (Nat.eq_dec j i) as [Q|NE]; [rewrite Q, E in J; discriminate J|].
        destruct (xi_fit N c V _ _ _ J) as [_ KW]. rewrite KW in J.
        exact (xi_excl N c V j i k _ _ NE J E eq_refl eq_refl).
      * eapply inv_move; [exact V|exact E|intros _; left; reflexivity|exact Logic.I|noload|noload|discriminate].
    + destruct (x_loading c) as [n|] eqn:EL.
      * injection S as <-. eapply inv_move; [exact V|exact E|intros _; left; reflexivity| |noload|noload|discriminate].
        destruct (xi_loader N c V n EL) as (j & k1 & p1 & J & LN).
        destruct (loads_fit _ _ _ _ _ (xi_fit N c V _ _ _ J) LN) as [A B].
        exists None. split; [exact B|]. split; [intros _; exact A|]. intros _. split; discriminate.
      * injection S as <-. eapply inv_upd; [exact V|exact E|intros _; left; reflexivity| | | | |].
        -- cbn [fit x_loading x_loads]. split; [reflexivity|]. rewrite nth_error_app2 by lia. rewrite Nat.sub_diag. reflexivity.
        -- intros j k1 p1 NE J G. destruct p1 as [| | |n|n|n r|v|v|v|r]; cbn [fit x_loading x_loads x_store] in *; try exact G.
           ++ destruct G as (o & G1 & G2 & G3). exists o. split; [rewrite nth_error_app1; [exact G1|eapply nth_some_lt; exact G1]|].
              split; [|exact G3]. intros Q. specialize (G2 Q). congruence.
           ++ destruct G; congruence.
           ++ destruct G; congruence.
        -- intros n Q. injection Q as Q. left. left. rewrite Q. reflexivity.
        -- intros n _. right. exact EL.
        -- intros HN v Q. destruct (xi_cache N c V HN v Q) as [P|(j & k1 & J)]; [left; exact P|].
           right; right. exists j, k1. split; [|exact J]. intros X. rewrite X, E in J. discriminate J.
    + destruct F as (o & G1 & G2 & G3). rewrite G1 in S. destruct o as [[v| |]|]; [| | |discriminate]; injection S as <-.
      * eapply inv_move; [exact V|exact E|intros _; left; reflexivity| |noload|noload|discriminate].
        cbn [fit]. intros HN. destruct (G3 HN) as [G _]. apply G; reflexivity.
      * eapply inv_move; [exact V|exact E|discriminate| |noload|noload|discriminate]. cbn [fit]. discriminate.
      * eapply inv_move; [exact V|exact E|intros _; left; reflexivity| |noload|noload|discriminate].
        cbn [fit]. intros HN. destruct (G3 HN) as [_ G]. contradiction.
    + destruct F as [G1 G2]. injection S as <-.
      eapply inv_move; [exact V|exact E|intros _; left; reflexivity| | | |discriminate].
      * cbn [fit]. split; [exact G1|]. split; [exact G2|]. intros _. split; [intros v Q; congruence|discriminate].
      * intros m [X|[r X]]; [|discriminate X]. injection X as <-. right. eexists; reflexivity.
      * intros m [X|[r X]]; [discriminate X|]. injection X as X _. left. rewrite X. reflexivity.
    + destruct F as (G1 & G2 & G3). injection S as <-.
      eapply inv_upd; [exact V|exact E|intros _; left; reflexivity| | | | |].
      * destruct r as [v| |]; cbn [fit x_store]; [|discriminate|].
        -- intros HN. apply (proj1 (G3 HN)); reflexivity.
        -- intros HN. exact (proj2 (G3 HN)).
      * intros j k1 p1 NE J G.
        assert (NL : forall m, ~ loads_now p1 m).
        { intros m LN. apply NE. apply (xi_once N c V _ _ _ _ _ _ _ n J E LN). right. eexists; reflexivity. }
        destruct p1 as [| | |m|m|m r1|v|v|v|r1]; cbn [fit x_loading x_loads x_store] in *; try exact G.
        -- destruct G as (o & A & B & C). destruct (Nat.eq_dec n m) as [Q|NQ].
           ++ exists (Some r). rewrite Q. split; [apply upd_at_same; eapply nth_some_lt; exact A|].
              split; [discriminate|]. intros HN. destruct (G3 HN) as [G4 G5]. split; [intros v X; apply G4; congruence|congruence].
           ++ exists o. rewrite upd_at_other by exact NQ. split; [exact A|]. split; [|exact C].
              intros X. specialize (B X). congruence.
        -- exfalso. apply (NL m). left; reflexivity.
        -- exfalso. apply (NL m). right; eexists; reflexivity.
      * discriminate.
      * intros m L. exfalso. destruct r; destruct L as [X|[y X]]; discriminate X.
      * intros HN v Q. destruct (xi_cache N c V HN v Q) as [P|(j & k1 & J)]; [left; exact P|].
        right; right. exists j, k1. split; [|exact J]. intros X. rewrite X, E in J. discriminate J.
    + injection S as <-. eapply inv_upd; [exact V|exact E|intros _; left; reflexivity|exact F| | | |].
      * intros j k1 p1 _ _ G. exact G.
      * intros n L. right. split; [reflexivity|]. intros [X|[y X]]; discriminate X.
      * intros n [X|[y X]]; discriminate X.
      * intros HN w Q. destruct cached.
        -- injection Q as <-. left. apply F, HN.
        -- discriminate Q.
    + injection S as <-. eapply inv_move; [exact V|exact E|discriminate| |noload|noload|discriminate]. cbn [fit]. discriminate.
    + destruct F as [F1 F2]. injection S as <-. eapply inv_upd; [exact V|exact E|discriminate|cbn [fit]; discriminate| | | |].
      * intros j k1 p1 _ _ G. exact G.
      * intros n L. right. split; [reflexivity|]. intros [X|[y X]]; discriminate X.
      * intros n [X|[y X]]; discriminate X.
      * intros HN w Q. destruct cached.
        -- injection Q as <-. left. exact F1.
        -- discriminate Q.
    + discriminate.
  - destruct (nth_error (x_thr c) i) as [[k p]|] eqn:E; [|discriminate].
    pose proof (xi_fit N c V _ _ _ E) as F.
    destruct p as [| | |n|n|n r|v|v|v|r]; cbn [fit] in F; try (destruct k; discriminate S).
    + destruct F as [G1 G2]. assert (Some (mkX (x_store c) (x_cache c) (x_loading c) (x_loads c) (x_at c i k (TShut n XErr))) = Some c') as S' by (destruct k; exact S).
      injection S' as <-. eapply inv_move; [exact V|exact E|intros _; left; reflexivity| | | |discriminate].
      * cbn [fit]. split; [exact G1|]. split; [exact G2|]. intros _. split; discriminate.
      * intros m [X|[r X]]; [|discriminate X]. injection X as <-. right. eexists; reflexivity.
      * intros m [X|[r X]]; [discriminate X|]. injection X as X _. left. rewrite X. reflexivity.
    + destruct k; [discriminate|]. injection S as <-.
      eapply inv_move; [exact V|exact E|discriminate| |noload|noload|discriminate]. cbn [fit]. discriminate.
  - destruct (nth_error (x_thr c) i) as [[k p]|] eqn:E; [|discriminate].
    pose proof (xi_fit N c V _ _ _ E) as F.
    destruct p as [| | |n|n|n r|v|v|v|r]; cbn [fit] in F; try discriminate S.
    destruct F as [G1 G2]. injection S as <-. eapply inv_move; [exact V|exact E|intros _; left; reflexivity| | | |discriminate].
    + cbn [fit]. split; [exact G1|]. split; [exact G2|]. intros HN. destruct (HP HN).
    + intros m [X|[r X]]; [|discriminate X]. injection X as <-. right. eexists; reflexivity.
    + intros m [X|[r X]]; [discriminate X|]. injection X as X _. left. rewrite X. reflexivity.
  - destruct (nth_error (x_thr c) i) as [[[|] p]|] eqn:E; [discriminate| |discriminate].
    destruct p as [| | |n|n|n r|v|v|v|r]; try discriminate S. injection S as <-.
    eapply inv_upd; [exact V|exact E|intros _; left; reflexivity|split; reflexivity| | | |].
    + intros j k1 p1 NE J G. destruct (x_holds p1) eqn:H1; [|eapply fit_free; eassumption].
      exfalso. assert (NE2 : i <> j) by congruence. exact (xi_excl N c V i j k1 _ _ NE2 E J eq_refl H1).
    + intros n L. right. split; [reflexivity|]. intros [X|[y X]]; discriminate X.
    + intros n [X|[y X]]; discriminate X.
    + intros HN w Q. right; left. reflexivity.
Qed.
Lemma exec_inv (N : Prop) (ok : xchoice -> Prop) cached v c : (N -> forall x, ok x -> no_panic x) -> xexec ok cached v c -> xinv N c.
Proof.
  intros HP X. induction X as [|c x c' X IH OK S]; [apply start_inv|].
  eapply step_inv; [|exact IH|exact S]. intros HN. exact (HP HN x OK).
Qed.
Lemma exec_calm cached v c : xexec no_panic cached v c -> xinv True c.
Proof.
  apply exec_inv. intros _ x H; exact H.
Qed.
Lemma exec_any ok cached v c : xexec ok cached v c -> xinv False c.
Proof.
  apply exec_inv. intros [].
Qed.

Lemma value_used cached v c i k w : xexec no_panic cached v c -> nth_error (x_thr c) i = Some (k, TUse w) -> w = x_store c.
Proof.
  intros X E. exact (xi_fit True c (exec_calm _ _ _ X) _ _ _ E Logic.I).
Qed.
Lemma cache_true cached v c w : xexec no_panic cached v c -> x_cache c = Some w ->
  w = x_store c \/ exists i, nth_error (x_thr c) i = Some (XWrite, TSaved (x_store c)) /\ forall j k p, nth_error (x_thr c) j = Some (k, p) -> x_holds p = true -> j = i.
Proof.
  intros X E. pose proof (exec_calm _ _ _ X) as V. destruct (xi_cache True c V Logic.I w E) as [P|(i & k & J)]; [left; exact P|].
  right. exists i. destruct (xi_fit True c V _ _ _ J) as [_ KW]. rewrite KW in J. split; [exact J|].
  intros j k1 p1 J1 H1. destruct (Nat.eq_dec j i) as [Q|NE]; [exact Q|]. exfalso. assert (NE2 : i <> j) by congruence.
  exact (xi_excl True c V i j k1 _ _ NE2 J J1 eq_refl H1).
Qed.
Lemma one_load ok cached v c i j k1 k2 p1 p2 n m :
  xexec ok cached v c -> nth_error (x_thr c) i = Some (k1, p1) -> nth_error (x_thr c) j = Some (k2, p2) -> loads_now p1 n -> loads_now p2 m -> i = j.
Proof.
  intros X. exact (xi_once False c (exec_any _ _ _ _ X) i j k1 k2 p1 p2 n m).
Qed.
Lemma readers_wait ok cached v c i j k1 k2 p1 n m :
  xexec ok cached v c -> nth_error (x_thr c) i = Some (k1, p1) -> loads_now p1 n -> nth_error (x_thr c) j = Some (k2, TWait m) -> k1 = XRead /\ k2 = XRead.
Proof.
  intros X E L J. pose proof (exec_any _ _ _ _ X) as V.
  assert (NE : i <> j). { intros Q. rewrite Q, J in E. injection E as _ E. rewrite <- E in L. destruct L as [Y|[r Y]]; discriminate Y. }
  assert (NE2 : j <> i) by congruence.
  split; [destruct k1; [reflexivity|]|destruct k2; [reflexivity|]]; exfalso.
  - exact (xi_excl False c V i j k2 _ _ NE E J (loads_hold _ _ L) eq_refl).
  - exact (xi_excl False c V j i k1 _ _ NE2 J E eq_refl (loads_hold _ _ L)).
Qed.

(** a call that has not ended can be finished *)
Definition togo (p : xpc) : nat :=
  match p with TWant => 7 | THave => 6 | TMiss => 5 | TGet _ => 4 | TWait _ => 3 | TShut _ _ => 3 | TCache _ => 2 | TUse _ => 1 | TSaved _ => 1 | TDone _ => 0 end.
Definition total (c : xcfg) : nat := fold_right (fun (t : xkind * xpc) n => togo (snd t) + n) 0 (x_thr c).
Lemma total_upd k p0 p : forall l i, nth_error l i = Some (k, p0) -> togo p < togo p0 ->
  fold_right (fun (t : xkind * xpc) n => togo (snd t) + n) 0 (upd_nth i (fun _ => (k, p)) l) < fold_right (fun (t : xkind * xpc) n => togo (snd t) + n) 0 l.
Proof.
  induction l as [|[k1 p1] l IH]; intros [|i] E L; cbn [nth_error] in E; try discriminate E.
  - injection E as -> ->. cbn [upd_nth fold_right snd]. lia.
  - cbn [upd_nth fold_right snd]. specialize (IH i E L). lia.
Qed.
Lemma go_less cached c i c' : xstep cached c (X_go i) = Some c' -> total c' < total c.
Proof.
  cbn [xstep]. destruct (nth_error (x_thr c) i) as [[k p]|] eqn:E; [|discriminate]. intros S. unfold total.
  destruct p as [| | |n|n|n r|v|v|v|r];
    repeat match type of S with
    | (if ?b then _ else _) = _ => destruct b
    | match ?o with _ => _ end = _ => destruct o
    end; try discriminate S; injection S as <-; cbn [x_move x_thr]; unfold x_at; eapply total_upd; try exact E;
    cbn [togo]; try lia; destruct r; cbn [togo]; lia.
Qed.
Lemma can_go N cached c i k p : xinv N c -> nth_error (x_thr c) i = Some (k, p) -> x_holds p = true -> (forall r, p <> TDone r) ->
  exists j c', xstep cached c (X_go j) = Some c'.
Proof.
  intros V E H ND.
  assert (LD : forall j k1 p1 n, nth_error (x_thr c) j = Some (k1, p1) -> loads_now p1 n -> exists c', xstep cached c (X_go j) = Some c').
  { intros j k1 p1 n J [Q|[r Q]]; rewrite Q in J; cbn [xstep]; rewrite J; eexists; reflexivity. }
  pose proof (xi_fit N c V _ _ _ E) as F.
  destruct p as [| | |n|n|n r|v|v|v|r]; cbn [x_holds] in H; try discriminate H; try (exists i; cbn [xstep]; rewrite E; eexists; reflexivity).
  - exists i. cbn [xstep]. rewrite E. destruct (x_cache c); eexists; reflexivity.
  - exists i. cbn [xstep]. rewrite E. destruct (x_loading c); eexists; reflexivity.
  - destruct F as (o & F1 & F2 & _). destruct o as [r|].
    + exists i. cbn [xstep]. rewrite E, F1. destruct r; eexists; reflexivity.
    + destruct (xi_loader N c V n (F2 eq_refl)) as (j & k1 & p1 & J & LN). exists j. eapply LD; eassumption.
  - destruct (ND r eq_refl).
Qed.
Lemma progress cached c i k p : xinv True c -> nth_error (x_thr c) i = Some (k, p) -> (forall r, p <> TDone r) ->
  exists j c', xstep cached c (X_go j) = Some c'.
Proof.
  intros V E ND. destruct (x_holds p) eqn:H; [eapply can_go; eassumption|].
  destruct p; cbn [x_holds] in H; try discriminate H; [|destruct (ND _ eq_refl)].
  destruct (x_free k (x_thr c)) eqn:FR.
  - exists i. cbn [xstep]. rewrite E, FR. eexists; reflexivity.
  - destruct (not_free _ _ FR) as (j & k1 & p1 & J & HJ).
    eapply can_go; [exact V|exact J|exact HJ|]. intros r Q. rewrite Q in J, HJ.
    pose proof (xi_fit True c V _ _ _ J Logic.I) as G. destruct r; cbn [x_holds] in HJ; try discriminate HJ. congruence.
Qed.
Lemma done_or_not c : all_done c \/ exists i k p, nth_error (x_thr c) i = Some (k, p) /\ forall r, p <> TDone r.
Proof.
  unfold all_done. induction (x_thr c) as [|[k p] l IH].
  - left. intros [|i] k p H; discriminate H.
  - destruct IH as [IH|(i & k1 & p1 & E & ND)].
    + destruct p as [| | |n|n|n r|v|v|v|r]; try (right; exists 0, k; eexists; split; [reflexivity|discriminate]).
      left. intros [|i] k1 p1 H; [injection H as _ <-; exists r; reflexivity|]. exact (IH i k1 p1 H).
    + right. exists (S i), k1, p1. split; [exact E|exact ND].
Qed.
Lemma finishes_inv cached : forall m c, total c <= m -> xinv True c -> exists l c', Forall goes l /\ xplay cached c l = Some c' /\ all_done c'.
Proof.
  induction m as [|m IH]; intros c L V; (destruct (done_or_not c) as [D|(i & k & p & E & ND)]; [exists [], c; repeat split; [constructor|exact D]|]);
    destruct (progress cached c i k p V E ND) as (j & c1 & S); pose proof (go_less _ _ _ _ S) as LS; [lia|].
  assert (V1 : xinv True c1) by (eapply step_inv; [|exact V|exact S]; intros _; exact Logic.I).
  destruct (IH c1 ltac:(lia) V1) as (l & c' & F & P & D). exists (X_go j :: l), c'. repeat split; [constructor; [exact Logic.I|exact F]| |exact D].
  cbn [xplay]. rewrite S. exact P.
Qed.
Lemma all_finish cached v c : xexec no_panic cached v c -> exists l c', Forall goes l /\ xplay cached c l = Some c' /\ all_done c'.
Proof.
  intros X. exact (finishes_inv cached (total c) c (le_n _) (exec_calm _ _ _ X)).
Qed.
Lemma step_shrinks cached c i : xstep cached c (X_go i) <> None -> exists c', xstep cached c (X_go i) = Some c' /\ total c' < total c.
Proof.
  intros H. destruct (xstep cached c (X_go i)) as [c'|] eqn:E; [|congruence]. exists c'. split; [reflexivity|]. eapply go_less; exact E.
Qed.

(** what a call ends with *)
Ltac openstep S := repeat match type of S with
  | (if ?b then _ else _) = _ => destruct b eqn:?
  | match ?o with _ => _ end = _ => destruct o eqn:?
  end; try discriminate S; injection S as <-; cbn [x_move x_thr x_store x_cache x_loads x_loading] in *.
Lemma answer_now cached v c x c' i k p w : xexec no_panic cached v c -> no_panic x -> xstep cached c x = Some c' ->
  nth_error (x_thr c) i = Some (k, p) -> (forall r, p <> TDone r) -> nth_error (x_thr c') i = Some (k, TDone (XVal w)) -> w = x_store c'.
Proof.
  intros X NP S E ND E'. pose proof (exec_calm _ _ _ X) as V.
  assert (AT : forall j k1 p1, nth_error (x_at c j k1 p1) i = Some (k, TDone (XVal w)) -> p1 = TDone (XVal w) /\ j = i).
  { intros j k1 p1 J. unfold x_at in J. destruct (upd_at_inv _ _ _ _ _ J) as [[Q1 Q2]|[_ Q2]]; [split; congruence|].
    rewrite E in Q2. injection Q2 as Q2. destruct (ND _ Q2). }
  destruct x as [k0| |j|j|j|j v0]; cbn [xstep] in S.
  - injection S as <-. cbn [x_thr] in E'. rewrite nth_error_app1 in E' by (eapply nth_some_lt; exact E). rewrite E in E'. injection E' as E'. destruct (ND _ E').
  - injection S as <-. cbn [x_thr] in E'. rewrite E in E'. injection E' as E'. destruct (ND _ E').
  - destruct (nth_error (x_thr c) j) as [[k1 p1]|] eqn:J; [|discriminate]. pose proof (xi_fit True c V _ _ _ J) as F.
    destruct p1; openstep S; destruct (AT _ _ _ E') as [Q _]; try discriminate Q; try (destruct r; discriminate Q); injection Q as <-.
    + exact (F Logic.I).
    + exact (proj1 F).
  - destruct (nth_error (x_thr c) j) as [[k1 p1]|] eqn:J; [|discriminate].
    destruct p1, k1; openstep S; destruct (AT _ _ _ E') as [Q _]; discriminate Q.
  - destruct NP.
  - destruct (nth_error (x_thr c) j) as [[k1 p1]|] eqn:J; [|discriminate].
    destruct p1, k1; openstep S; destruct (AT _ _ _ E') as [Q _]; discriminate Q.
Qed.

Definition well (r : xres) : Prop := exists v, r = XVal v.
Record winv (c : xcfg) : Prop := mkWI {
  wi_thr : forall i k p, nth_error (x_thr c) i = Some (k, p) -> match p with TShut _ r | TDone r => well r | _ => True end;
  wi_loads : forall n r, nth_error (x_loads c) n = Some (Some r) -> well r }.
Lemma well_upd c i k p st ca lo ls : winv c -> match p with TShut _ r | TDone r => well r | _ => True end ->
  (forall n r, nth_error ls n = Some (Some r) -> well r) -> winv (mkX st ca lo ls (x_at c i k p)).
Proof.
  intros V HP HL. constructor; cbn [x_thr x_loads]; [|exact HL]. intros j k1 p1 J. unfold x_at in J.
  destruct (upd_at_inv _ _ _ _ _ J) as [[_ Q]|[_ Q]]; [injection Q as _ ->; exact HP|]. exact (wi_thr c V _ _ _ Q).
Qed.
Lemma well_step cached c x c' : no_failure x -> winv c -> xstep cached c x = Some c' -> winv c'.
Proof.
  intros NF V S. pose proof (wi_loads c V) as HL. destruct x as [k0| |j|j|j|j v0]; cbn [xstep] in S; try destruct NF.
  - injection S as <-. constructor; cbn [x_thr x_loads]; [|exact HL]. intros i k p J.
    destruct (Nat.lt_ge_cases i (length (x_thr c))) as [L|L].
    + rewrite nth_error_app1 in J by exact L. exact (wi_thr c V _ _ _ J).
    + rewrite nth_error_app2 in J by exact L. destruct (i - length (x_thr c)) as [|[|q]]; cbn [nth_error] in J; try discriminate J. injection J as _ <-. exact Logic.I.
  - injection S as <-. constructor; cbn [x_thr x_loads]; [exact (wi_thr c V)|exact HL].
  - destruct (nth_error (x_thr c) j) as [[k1 p1]|] eqn:J; [|discriminate]. pose proof (wi_thr c V _ _ _ J) as F.
    destruct p1; openstep S; (apply well_upd; [exact V| |try exact HL]); try exact Logic.I; try (eexists; reflexivity).
    + intros n r Q. destruct (Nat.lt_ge_cases n (length (x_loads c))) as [L|L].
      * rewrite nth_error_app1 in Q by exact L. exact (HL _ _ Q).
      * rewrite nth_error_app2 in Q by exact L. destruct (n - length (x_loads c)) as [|[|q]]; cbn [nth_error] in Q; discriminate Q.
    + match goal with H : nth_error (x_loads c) _ = Some (Some XErr) |- _ => exact (HL _ _ H) end.
    + destruct F as [v F]. rewrite F. exact Logic.I.
    + intros m r1 Q. destruct (upd_at_inv _ _ _ _ _ Q) as [[_ Q2]|[_ Q2]]; [|exact (HL _ _ Q2)]. injection Q2 as ->. exact F.
  - destruct (nth_error (x_thr c) j) as [[k1 p1]|] eqn:J; [|discriminate].
    destruct p1, k1; openstep S. apply well_upd; [exact V|exact Logic.I|exact HL].
Qed.
Lemma all_answered cached v c i k r : xexec no_failure cached v c -> nth_error (x_thr c) i = Some (k, TDone r) -> exists w, r = XVal w.
Proof.
  intros X. assert (V : winv c).
  { induction X as [|c x c' X IH OK S].
    - constructor; cbn [xstart x_thr x_loads]; [intros [|j] k0 p H|intros [|n] r0 H]; discriminate H.
    - eapply well_step; eassumption. }
  intros E. exact (wi_thr c V _ _ _ E).
Qed.

(** after a panic *)
Lemma done_stays cached c x c' i k r : xstep cached c x = Some c' -> nth_error (x_thr c) i = Some (k, TDone r) -> nth_error (x_thr c') i = Some (k, TDone r).
Proof.
  intros S E.
  assert (AT : forall j k1 p1 p2, nth_error (x_thr c) j = Some (k1, p1) -> (forall r0, p1 <> TDone r0) -> nth_error (x_at c j k1 p2) i = Some (k, TDone r)).
  { intros j k1 p1 p2 J ND. unfold x_at. rewrite upd_at_other; [exact E|]. intros Q. rewrite Q, E in J. injection J as _ J. exact (ND _ (eq_sym J)). }
  destruct x as [k0| |j|j|j|j v0]; cbn [xstep] in S.
  - injection S as <-. cbn [x_thr]. rewrite nth_error_app1; [exact E|]. eapply nth_some_lt; exact E.
  - injection S as <-. exact E.
  - destruct (nth_error (x_thr c) j) as [[k1 p1]|] eqn:J; [|discriminate].
    destruct p1; openstep S; (eapply AT; [exact J|discriminate]).
  - destruct (nth_error (x_thr c) j) as [[k1 p1]|] eqn:J; [|discriminate].
    destruct p1, k1; openstep S; (eapply AT; [exact J|discriminate]).
  - destruct (nth_error (x_thr c) j) as [[k1 p1]|] eqn:J; [|discriminate].
    destruct p1, k1; openstep S; (eapply AT; [exact J|discriminate]).
  - destruct (nth_error (x_thr c) j) as [[k1 p1]|] eqn:J; [|discriminate].
    destruct p1, k1; openstep S; (eapply AT; [exact J|discriminate]).
Qed.
Lemma want_or_gone cached c x c' j k p : xstep cached c x = Some c' -> nth_error (x_thr c) j = Some (k, TWant) -> nth_error (x_thr c') j = Some (k, p) -> p = TWant \/ x_holds p = true.
Proof.
  intros S E E'.
  assert (AT : forall i k1 p1 p2, nth_error (x_thr c) i = Some (k1, p1) -> nth_error (x_at c i k1 p2) j = Some (k, p) -> (i = j /\ p1 = TWant /\ p = p2) \/ p = TWant).
  { intros i k1 p1 p2 J Q. unfold x_at in Q. destruct (upd_at_inv _ _ _ _ _ Q) as [[Q1 Q2]|[_ Q2]].
    - left. split; [exact Q1|]. rewrite Q1, E in J. split; congruence.
    - right. congruence. }
  destruct x as [k0| |i|i|i|i v0]; cbn [xstep] in S.
  - injection S as <-. cbn [x_thr] in E'. rewrite nth_error_app1 in E' by (eapply nth_some_lt; exact E). left. congruence.
  - injection S as <-. cbn [x_thr] in E'. left. congruence.
  - destruct (nth_error (x_thr c) i) as [[k1 p1]|] eqn:J; [|discriminate].
    destruct p1; openstep S; destruct (AT _ _ _ _ J E') as [(_ & Q & Q2)|Q]; try discriminate Q; try (left; exact Q); right; rewrite Q2; reflexivity.
  - destruct (nth_error (x_thr c) i) as [[k1 p1]|] eqn:J; [|discriminate].
    destruct p1, k1; openstep S; destruct (AT _ _ _ _ J E') as [(_ & Q & Q2)|Q]; try discriminate Q; left; exact Q.
  - destruct (nth_error (x_thr c) i) as [[k1 p1]|] eqn:J; [|discriminate].
    destruct p1, k1; openstep S; destruct (AT _ _ _ _ J E') as [(_ & Q & Q2)|Q]; try discriminate Q; left; exact Q.
  - destruct (nth_error (x_thr c) i) as [[k1 p1]|] eqn:J; [|discriminate].
    destruct p1, k1; openstep S; destruct (AT _ _ _ _ J E') as [(_ & Q & Q2)|Q]; try discriminate Q; left; exact Q.
Qed.
Lemma thr_grows cached c x c' j k p : xstep cached c x = Some c' -> nth_error (x_thr c) j = Some (k, p) -> exists p', nth_error (x_thr c') j = Some (k, p').
Proof.
  intros S E.
  assert (AT : forall i k1 p1 p2, nth_error (x_thr c) i = Some (k1, p1) -> exists p', nth_error (x_at c i k1 p2) j = Some (k, p')).
  { intros i k1 p1 p2 J. unfold x_at. destruct (Nat.eq_dec i j) as [Q|NE].
    - exists p2. rewrite Q in *. rewrite upd_at_same by (eapply nth_some_lt; exact E). congruence.
    - exists p. rewrite upd_at_other by exact NE. exact E. }
  destruct x as [k0| |i|i|i|i v0]; cbn [xstep] in S;
    [injection S as <-; exists p; cbn [x_thr]; rewrite nth_error_app1; [exact E|eapply nth_some_lt; exact E]
    |injection S as <-; exists p; exact E| | | |];
    (destruct (nth_error (x_thr c) i) as [[k1 p1]|] eqn:J; [|discriminate]);
    destruct p1, k1; openstep S; (eapply AT; exact J).
Qed.
Lemma blocked_for_ever ok cached v : forall l c c' i j k k1,
  xexec ok cached v c -> (forall x, ok x) -> nth_error (x_thr c) i = Some (k, TDone XPanic) -> nth_error (x_thr c) j = Some (k1, TWant) ->
  k = XWrite \/ k1 = XWrite -> xplay cached c l = Some c' -> nth_error (x_thr c') j = Some (k1, TWant).
Proof.
  induction l as [|x l IH]; intros c c' i j k k1 X OK P W K PL; cbn [xplay] in PL.
  - congruence.
  - destruct (xstep cached c x) as [c1|] eqn:S; [|discriminate].
    assert (X1 : xexec ok cached v c1) by (econstructor; [exact X|apply OK|exact S]).
    pose proof (done_stays _ _ _ _ _ _ _ S P) as P1.
    destruct (thr_grows _ _ _ _ _ _ _ S W) as [p' W1].
    assert (NE : i <> j). { intros Q. rewrite Q, W in P. discriminate P. }
    assert (p' = TWant) as Q.
    { destruct (want_or_gone _ _ _ _ _ _ _ S W W1) as [Q|H]; [exact Q|]. exfalso.
      pose proof (exec_any _ _ _ _ X1) as V1. destruct K as [K|K].
      - rewrite K in P1. exact (xi_excl False c1 V1 i j k1 _ _ NE P1 W1 eq_refl H).
      - rewrite K in W1. assert (NE2 : j <> i) by congruence. exact (xi_excl False c1 V1 j i k _ _ NE2 W1 P1 H eq_refl). }
    rewrite Q in W1. eapply IH; eassumption.
Qed.
