(** Lists made, replaced and deleted while they are used: data and the map. *)
From Coq Require Import Strings.String.
From Verif.Lib Require Import Prelude ListAux ListLemmas.
From Verif.Model Require Import MakeDrop.
From Verif.Spec Require Import MakeDropSpec.
From Verif.Proof Require Import MakeDropP.
Open Scope nat_scope.

(** ** A list that can be found has its data *)
Definition has (p : place) (o : nat) : Prop := p = PGone o \/ p = PErase o \/ p = PMake (Some o) \/ exists n, p = PDrop o n.
Record whole (c : dcfg) : Prop := {
  w_map : forall id o, d_map c id = Some o -> exists b, nth_error (d_objs c) o = Some b /\ o_id b = id /\ o_added b = true;
  w_own : forall i r p n, nth_error (d_reqs c) i = Some (r, p) -> owns p n -> exists b, nth_error (d_objs c) n = Some b /\ o_added b = false /\ o_data b = true /\ maker r = Some (o_id b);
  w_has : forall i r p o, nth_error (d_reqs c) i = Some (r, p) -> has p o ->
    exists b, nth_error (d_objs c) o = Some b /\ o_added b = true /\ maker r = Some (o_id b);
  w_gone : forall i r o, nth_error (d_reqs c) i = Some (r, PErase o) -> forall id, d_map c id <> Some o;
  w_one : forall i j r p r' p' n, nth_error (d_reqs c) i = Some (r, p) -> nth_error (d_reqs c) j = Some (r', p') -> owns p n -> owns p' n -> i = j;
  w_broken : forall id o b, d_map c id = Some o -> nth_error (d_objs c) o = Some b -> o_data b = false ->
    exists i rep x new, nth_error (d_reqs c) i = Some (RCreate id rep x, PAdd new) }.

(** objects with the same ID and place, and the data of [keep] *)
Definition like (objs objs' : list obj) (keep : nat -> Prop) : Prop :=
  forall n b, nth_error objs n = Some b -> exists b', nth_error objs' n = Some b' /\ o_id b' = o_id b /\ o_added b' = o_added b /\ (keep n -> o_data b' = o_data b).
Lemma like_refl objs keep : like objs objs keep.
Proof. intros n b E. exists b. auto. Qed.
Lemma like_erase ok o objs : like objs (erase ok o objs) (fun n => n <> o).
Proof.
  intros n b E. unfold erase. destruct ok; [|exists b; auto]. rewrite nth_upd_f, E. destruct (Nat.eqb_spec n o); eexists; (split; [reflexivity|]); cbn; auto. repeat split. contradiction.
Qed.
Lemma like_call o x objs keep : like objs (upd_nth o (fun b => mkO (o_id b) (o_hist b ++ [x]) (o_data b) (o_added b)) objs) keep.
Proof. intros n b E. rewrite nth_upd_f, E. destruct (n =? o); eexists; (split; [reflexivity|]); cbn; auto. Qed.
Lemma like_back objs objs' keep n b' : like objs objs' keep -> length objs' = length objs -> nth_error objs' n = Some b' ->
  exists b, nth_error objs n = Some b /\ o_id b' = o_id b /\ o_added b' = o_added b /\ (keep n -> o_data b' = o_data b).
Proof.
  intros L E H. destruct (nth_error objs n) as [b|] eqn:Eb.
  - exists b. split; [reflexivity|]. destruct (L _ _ Eb) as (b2 & E2 & X). rewrite H in E2. injection E2 as <-. exact X.
  - apply nth_error_None in Eb. assert (n < length objs') by (apply nth_error_Some; congruence). lia.
Qed.

Lemma at_cases c k r p p' i q : nth_error (d_reqs c) k = Some (r, p) -> nth_error (at_place c k r p') i = Some q -> (i = k /\ q = (r, p')) \/ (i <> k /\ nth_error (d_reqs c) i = Some q).
Proof. intros Hk. apply (reqs_at c k r p p' Hk). Qed.
Lemma at_other c k r p' i q : i <> k -> nth_error (d_reqs c) i = q -> nth_error (at_place c k r p') i = q.
Proof. intros N E. rewrite <- E. apply (reqs_ne c k r p' i N). Qed.
Lemma at_self c k r p p' : nth_error (d_reqs c) k = Some (r, p) -> nth_error (at_place c k r p') k = Some (r, p').
Proof. intros Hk. exact (reqs_k c k r p p' Hk). Qed.

Lemma whole_gen c k r p p' objs' map' keep : whole c -> nth_error (d_reqs c) k = Some (r, p) -> like (d_objs c) objs' keep -> length objs' = length (d_objs c) ->
  (forall id o, map' id = Some o -> d_map c id = Some o) -> (forall i r1 p1 n, nth_error (d_reqs c) i = Some (r1, p1) -> owns p1 n -> keep n) ->
  (forall n, owns p' n -> owns p n) -> (forall o, has p' o -> has p o \/ exists id, d_map c id = Some o /\ maker r = Some id) ->
  (forall o, p' = PErase o -> forall id, map' id <> Some o) -> (forall id o, map' id = Some o -> keep o \/ exists rep x new, r = RCreate id rep x /\ p' = PAdd new) -> (forall n, p <> PAdd n) ->
  whole (mkD objs' map' (at_place c k r p')).
Proof.
  intros W Hk L Ln Mp Kp Ow Ha Go Br Np. constructor; cbn [d_objs d_map d_reqs].
  - intros id o E. destruct (w_map _ W _ _ (Mp _ _ E)) as (b & Eb & A & B). destruct (L _ _ Eb) as (b' & E' & A1 & A2 & _). exists b'. repeat split; congruence.
  - intros i r1 p1 n Hi O. assert (X : exists p2, nth_error (d_reqs c) i = Some (r1, p2) /\ owns p2 n).
    { apply (at_cases c k r p p' i _ Hk) in Hi as [(-> & E)|(_ & Hi)]; [injection E as -> ->; exists p; auto|exists p1; auto]. }
    destruct X as (p2 & Hi' & O'). destruct (w_own _ W _ _ _ _ Hi' O') as (b & Eb & A & B & C). destruct (L _ _ Eb) as (b' & E' & A1 & A2 & A3). exists b'.
    specialize (A3 (Kp _ _ _ _ Hi' O')). repeat split; congruence.
  - intros i r1 p1 o Hi O. assert (X : exists b, nth_error (d_objs c) o = Some b /\ o_added b = true /\ maker r1 = Some (o_id b)).
    { apply (at_cases c k r p p' i _ Hk) in Hi as [(-> & E)|(_ & Hi)]; [|exact (w_has _ W _ _ _ _ Hi O)]. injection E as -> ->. destruct (Ha _ O) as [O'|(id & Em & Er)]; [exact (w_has _ W _ _ _ _ Hk O')|].
      destruct (w_map _ W _ _ Em) as (b & Eb & A & B). exists b. repeat split; congruence. }
    destruct X as (b & Eb & A & B). destruct (L _ _ Eb) as (b' & E' & A1 & A2 & A3). exists b'. repeat split; congruence.
  - intros i r1 o Hi id E. apply (at_cases c k r p p' i _ Hk) in Hi as [(-> & E1)|(_ & Hi)]; [injection E1 as <- <-; exact (Go _ eq_refl _ E)|exact (w_gone _ W _ _ _ Hi _ (Mp _ _ E))].
  - intros i j r1 p1 r2 p2 n Hi Hj O1 O2.
    assert (G : forall i r1 p1, nth_error (at_place c k r p') i = Some (r1, p1) -> owns p1 n -> exists r2 p2, nth_error (d_reqs c) i = Some (r2, p2) /\ owns p2 n).
    { intros i0 ra pa H0 Oa. apply (at_cases c k r p p' i0 _ Hk) in H0 as [(-> & E)|(_ & H0)]; [injection E as -> ->; exists r, p; auto|eauto]. }
    destruct (G _ _ _ Hi O1) as (? & ? & A & B). destruct (G _ _ _ Hj O2) as (? & ? & C & D). exact (w_one _ W _ _ _ _ _ _ _ A C B D).
  - intros id o b' Em Eb' Hd. destruct (Br _ _ Em) as [K|(rep & x & new & -> & ->)]; [|exists k, rep, x, new; exact (at_self _ _ _ _ _ Hk)].
    destruct (like_back _ _ _ _ _ L Ln Eb') as (b & Eb & A1 & A2 & A3). specialize (A3 K). destruct (w_broken _ W id o b (Mp _ _ Em) Eb) as (i & rep & x & new & Hi); [congruence|].
    exists i, rep, x, new. apply at_other; [|exact Hi]. intros ->. rewrite Hk in Hi. injection Hi as _ E. exact (Np _ E).
Qed.
Lemma erase_len ok o l : length (erase ok o l) = length l.
Proof. unfold erase. destruct ok; [apply upd_len|reflexivity]. Qed.
Lemma whole_goes c k r p p' : whole c -> nth_error (d_reqs c) k = Some (r, p) -> (forall n, ~ owns p' n) -> (forall o, has p' o -> exists id, d_map c id = Some o /\ maker r = Some id) ->
  (forall o, p' <> PErase o) -> (forall n, p <> PAdd n) -> whole (mkD (d_objs c) (d_map c) (at_place c k r p')).
Proof.
  intros W Hk No Ha Ne Np. apply whole_gen with (p := p) (keep := fun _ => True); auto.
  - apply like_refl.
  - intros n O. destruct (No n O).
  - intros o E. destruct (Ne o E).
Qed.
Lemma whole_makes c k r p p' id x : whole c -> nth_error (d_reqs c) k = Some (r, p) -> (forall n, owns p' n -> n = length (d_objs c)) -> maker r = Some id -> (forall o, has p' o -> has p o) ->
  (forall o, p' <> PErase o) -> (forall n, p <> PAdd n) -> whole (mkD (d_objs c ++ [mkO id [x] true false]) (d_map c) (at_place c k r p')).
Proof.
  intros W Hk Ow Er Ha Ne Np. set (objs' := d_objs c ++ _).
  assert (Old : forall o b, nth_error (d_objs c) o = Some b -> nth_error objs' o = Some b) by (intros o b E; unfold objs'; rewrite nth_error_app1; [exact E|]; apply nth_error_Some; congruence).
  assert (Nw : nth_error objs' (length (d_objs c)) = Some (mkO id [x] true false)) by (unfold objs'; rewrite nth_error_app2, Nat.sub_diag by lia; reflexivity).
  constructor; cbn [d_objs d_map d_reqs].
  - intros i o E. destruct (w_map _ W _ _ E) as (b & Eb & X). exists b. auto.
  - intros i r1 p1 n Hi O. apply (at_cases c k r p p' i _ Hk) in Hi as [(-> & E)|(_ & Hi)].
    + injection E as -> ->. rewrite (Ow _ O). eexists. split; [exact Nw|]. auto.
    + destruct (w_own _ W _ _ _ _ Hi O) as (b & Eb & X). exists b. auto.
  - intros i r1 p1 o Hi O. assert (X : exists b, nth_error (d_objs c) o = Some b /\ o_added b = true /\ maker r1 = Some (o_id b)).
    { apply (at_cases c k r p p' i _ Hk) in Hi as [(-> & E)|(_ & Hi)]; [|exact (w_has _ W _ _ _ _ Hi O)]. injection E as -> ->. exact (w_has _ W _ _ _ _ Hk (Ha _ O)). }
    destruct X as (b & Eb & X). exists b. auto.
  - intros i r1 o Hi. apply (at_cases c k r p p' i _ Hk) in Hi as [(-> & E1)|(_ & Hi)]; [injection E1 as _ E1; destruct (Ne o (eq_sym E1))|exact (w_gone _ W _ _ _ Hi)].
  - intros i j r1 p1 r2 p2 n Hi Hj O1 O2.
    assert (G : forall i r1 p1, nth_error (d_reqs c) i = Some (r1, p1) -> owns p1 n -> n < length (d_objs c)).
    { intros i0 ra pa H0 Oa. destruct (w_own _ W _ _ _ _ H0 Oa) as (b & Eb & _). apply nth_error_Some. congruence. }
    apply (at_cases c k r p p' i _ Hk) in Hi as [(-> & E)|(N & Hi)]; apply (at_cases c k r p p' j _ Hk) in Hj as [(-> & E')|(N' & Hj)]; [reflexivity| | |exact (w_one _ W _ _ _ _ _ _ _ Hi Hj O1 O2)].
    + injection E as -> ->. specialize (G _ _ _ Hj O2). apply Ow in O1. lia.
    + injection E' as -> ->. specialize (G _ _ _ Hi O1). apply Ow in O2. lia.
  - intros i o b Em Eb Hd. destruct (w_map _ W _ _ Em) as (b1 & Eb1 & _). rewrite (Old _ _ Eb1) in Eb. injection Eb as ->.
    destruct (w_broken _ W _ _ _ Em Eb1 Hd) as (j & rep & x0 & new & Hj). exists j, rep, x0, new. apply at_other; [|exact Hj]. intros ->. rewrite Hk in Hj. injection Hj as _ E. exact (Np _ E).
Qed.
Lemma whole_adds c k r id new : whole c -> nth_error (d_reqs c) k = Some (r, PAdd new) -> maker r = Some id ->
  whole (mkD (upd_nth new (fun b => mkO (o_id b) (o_hist b) (o_data b) true) (d_objs c)) (set_map (d_map c) id (Some new)) (at_place c k r (PEnd AOk))).
Proof.
  intros W Hk Er. set (objs' := upd_nth new _ _). destruct (w_own _ W _ _ _ new Hk (or_introl eq_refl)) as (b0 & E0 & F0 & D0 & M0).
  assert (Eid : o_id b0 = id) by congruence.
  assert (Nw : nth_error objs' new = Some (mkO (o_id b0) (o_hist b0) (o_data b0) true)) by (unfold objs'; rewrite nth_upd_f, Nat.eqb_refl, E0; reflexivity).
  assert (Ne : forall o, o <> new -> nth_error objs' o = nth_error (d_objs c) o) by (intros o N; unfold objs'; rewrite nth_upd_f; destruct (Nat.eqb_spec o new); [contradiction|reflexivity]).
  assert (Nm : forall o b, nth_error (d_objs c) o = Some b -> o_added b = true -> o <> new) by (intros o b E A ->; congruence).
  constructor; cbn [d_objs d_map d_reqs].
  - intros i o. unfold set_map. destruct (string_dec i id) as [->|N]; [intros E; injection E as <-; eexists; split; [exact Nw|]; auto|].
    intros E. destruct (w_map _ W _ _ E) as (b & Eb & A & B). exists b. rewrite Ne by exact (Nm _ _ Eb B). auto.
  - intros i r1 p1 n Hi O. apply (at_cases c k r _ _ i _ Hk) in Hi as [(-> & E)|(N & Hi)]; [injection E as -> ->; destruct O as [O|(? & O)]; discriminate O|].
    destruct (w_own _ W _ _ _ _ Hi O) as (b & Eb & X). exists b. rewrite Ne; [auto|]. intros ->. apply N. exact (w_one _ W _ _ _ _ _ _ _ Hi Hk O (or_introl eq_refl)).
  - intros i r1 p1 o Hi O. apply (at_cases c k r _ _ i _ Hk) in Hi as [(-> & E)|(N & Hi)]; [injection E as -> ->; destruct O as [O|[O|[O|(? & O)]]]; discriminate O|].
    destruct (w_has _ W _ _ _ _ Hi O) as (b & Eb & A & B). exists b. rewrite Ne by exact (Nm _ _ Eb A). auto.
  - intros i r1 o Hi j. apply (at_cases c k r _ _ i _ Hk) in Hi as [(_ & E)|(N & Hi)]; [discriminate E|]. unfold set_map. destruct (string_dec j id); [|exact (w_gone _ W _ _ _ Hi j)].
    destruct (w_has _ W _ _ _ o Hi) as (b & Eb & A & B); [right; left; reflexivity|]. intros E. injection E as ->. exact (Nm _ _ Eb A eq_refl).
  - intros i j r1 p1 r2 p2 n Hi Hj O1 O2. apply (at_cases c k r _ _ i _ Hk) in Hi as [(-> & E)|(_ & Hi)]; [injection E as -> ->; destruct O1 as [O|(? & O)]; discriminate O|].
    apply (at_cases c k r _ _ j _ Hk) in Hj as [(-> & E)|(_ & Hj)]; [injection E as -> ->; destruct O2 as [O|(? & O)]; discriminate O|]. exact (w_one _ W _ _ _ _ _ _ _ Hi Hj O1 O2).
  - intros i o b. unfold set_map. destruct (string_dec i id) as [->|N]; [intros E; injection E as <-; rewrite Nw; intros E; injection E as <-; cbn; congruence|].
    intros Em. destruct (w_map _ W _ _ Em) as (b1 & Eb1 & A & B). rewrite Ne by exact (Nm _ _ Eb1 B). intros Eb Hd. destruct (w_broken _ W _ _ _ Em Eb Hd) as (j & rep & x & n & Hj).
    exists j, rep, x, n. apply at_other; [|exact Hj]. intros ->. rewrite Hk in Hj. injection Hj as -> _. cbn in Er. congruence.
Qed.
Ltac no_has := intros ? [O|[O|[O|(? & O)]]]; discriminate O.
Lemma whole_step c x ls c' : whole c -> dstep c x = Some (ls, c') -> whole c'.
Proof.
  intros W. destruct x as [r|k ok]; cbn [dstep].
  - intros E. injection E as <- <-.
    assert (At : forall i q, nth_error (d_reqs c ++ [(r, PStart)]) i = Some q -> nth_error (d_reqs c) i = Some q \/ q = (r, PStart)).
    { intros i q E. destruct (Nat.lt_ge_cases i (length (d_reqs c))) as [L|L]; [rewrite nth_error_app1 in E by exact L; auto|].
      rewrite nth_error_app2 in E by exact L. destruct (i - length (d_reqs c)) as [|[|u]]; cbn in E; try discriminate. injection E as <-. auto. }
    constructor; cbn [d_objs d_map d_reqs].
    + exact (w_map _ W).
    + intros i r1 p1 n Hi O. apply At in Hi as [Hi|E]; [exact (w_own _ W _ _ _ _ Hi O)|injection E as -> ->; destruct O as [O|(? & O)]; discriminate O].
    + intros i r1 p1 n Hi O. apply At in Hi as [Hi|E]; [exact (w_has _ W _ _ _ _ Hi O)|injection E as -> ->; destruct O as [O|[O|[O|(? & O)]]]; discriminate O].
    + intros i r1 o Hi. apply At in Hi as [Hi|E]; [exact (w_gone _ W _ _ _ Hi)|discriminate E].
    + intros i j r1 p1 r2 p2 n Hi Hj O1 O2. apply At in Hi as [Hi|E]; [|injection E as -> ->; destruct O1 as [O|(? & O)]; discriminate O].
      apply At in Hj as [Hj|E]; [|injection E as -> ->; destruct O2 as [O|(? & O)]; discriminate O]. exact (w_one _ W _ _ _ _ _ _ _ Hi Hj O1 O2).
    + intros id o b Em Eb Hd. destruct (w_broken _ W _ _ _ Em Eb Hd) as (i & rep & x & new & Hi). exists i, rep, x, new. rewrite nth_error_app1; [exact Hi|]. apply nth_error_Some. congruence.
  - destruct (nth_error (d_reqs c) k) as [[r p]|] eqn:Hk; [|discriminate].
    assert (Kn : forall o, has p o -> forall i r1 p1 n, nth_error (d_reqs c) i = Some (r1, p1) -> owns p1 n -> n <> o).
    { intros o Ho i r1 p1 n Hi O ->. destruct (w_has _ W _ _ _ _ Hk Ho) as (b & Eb & A & _). destruct (w_own _ W _ _ _ _ Hi O) as (b' & Eb' & A' & _). congruence. }
    assert (Mk : forall o, has p o -> forall id, d_map c id = Some o -> maker r = Some id).
    { intros o Ho id Em. destruct (w_has _ W _ _ _ _ Hk Ho) as (b & Eb & A & B). destruct (w_map _ W _ _ Em) as (b' & Eb' & A' & _). congruence. }
    assert (Er : forall o q ok', p = PErase o -> (forall n, ~ owns q n) -> (forall u, ~ has q u) -> whole (mkD (erase ok' o (d_objs c)) (d_map c) (at_place c k r q))).
    { intros o q ok' -> Q1 Q2. eapply whole_gen; [exact W|exact Hk|apply like_erase|apply erase_len|auto| | | | | |discriminate].
      - apply Kn. right. left. reflexivity.
      - intros n O. destruct (Q1 n O).
      - intros u U. destruct (Q2 u U).
      - intros u ->. destruct (Q2 u). right. left. reflexivity.
      - intros id u Eu. left. intros ->. exact (w_gone _ W _ _ _ Hk _ Eu). }
    assert (De : forall o id, p = PGone o -> maker r = Some id -> whole (mkD (d_objs c) (set_map (d_map c) id None) (at_place c k r (PErase o)))).
    { intros o id -> Hm. eapply whole_gen with (keep := fun _ => True); [exact W|exact Hk|apply like_refl|reflexivity| |auto|no_own| | |auto|discriminate].
      - intros i u. unfold set_map. destruct (string_dec i id); [discriminate|auto].
      - intros u [O|[O|[O|(? & O)]]]; try discriminate O. injection O as <-. left. left. reflexivity.
      - intros u E i. injection E as <-. unfold set_map. destruct (string_dec i id) as [->|N]; [discriminate|]. intros Em. apply N. pose proof (Mk o (or_introl eq_refl) _ Em). congruence. }
    destruct r as [id rep x|id rep x|id|id x].
    + destruct p as [| |old|old new|new| | | | |]; try discriminate.
      * destruct (d_map c id) as [o|] eqn:Em; intros E; injection E as <- <-; (eapply whole_goes; [exact W|exact Hk|..]); try discriminate; try no_own.
        -- destruct rep; no_own.
        -- destruct rep; [|no_has]. intros u [O|[O|[O|(? & O)]]]; try discriminate O. injection O as <-. exists id. auto.
        -- destruct rep; discriminate.
        -- no_has.
      * destruct ok; intros E; injection E as <- <-.
        -- eapply whole_makes; [exact W|exact Hk| |reflexivity| | |discriminate].
           ++ destruct old; intros nn [O|(? & O)]; try discriminate O; injection O; intros; congruence.
           ++ destruct old; [|no_has]. intros u [O|[O|[O|(? & O)]]]; try discriminate O. injection O as -> _. right. right. left. reflexivity.
           ++ destruct old; discriminate.
        -- eapply whole_goes; [exact W|exact Hk|no_own|no_has|discriminate|discriminate].
      * intros E. injection E as <- <-. eapply whole_gen; [exact W|exact Hk|apply like_erase|apply erase_len|auto| | |no_has|discriminate| |discriminate].
        -- apply Kn. right. right. right. exists new. reflexivity.
        -- intros n [O|(? & O)]; [injection O as <-; right; exists old; reflexivity|discriminate O].
        -- intros i u Eu. destruct (Nat.eq_dec u old) as [->|N]; [right|left; exact N]. specialize (Mk old (or_intror (or_intror (or_intror (ex_intro _ new eq_refl)))) _ Eu). injection Mk as <-. exists rep, x, new. auto.
      * intros E. injection E as <- <-. apply whole_adds; [exact W|exact Hk|reflexivity].
    + destruct p as [| | | |new| |o|o| |]; try discriminate.
      * destruct (d_map c id) as [o|] eqn:Em; intros E; injection E as <- <-; (eapply whole_goes; [exact W|exact Hk|..]); try discriminate; try no_own; try no_has.
        -- destruct rep; no_own.
        -- destruct rep; no_has.
        -- destruct rep; discriminate.
      * intros E. injection E as <- <-. apply whole_adds; [exact W|exact Hk|reflexivity].
      * destruct (d_map c id) as [o|] eqn:Em; intros E; injection E as <- <-; (eapply whole_goes; [exact W|exact Hk|no_own| |discriminate|discriminate]); [|no_has].
        intros u [O|[O|[O|(? & O)]]]; try discriminate O. injection O as <-. exists id. auto.
      * intros E. injection E as <- <-. apply De; reflexivity.
      * intros E. injection E as <- <-. apply Er; [reflexivity|no_own|no_has].
      * destruct ok; intros E; injection E as <- <-.
        -- eapply whole_makes; [exact W|exact Hk| |reflexivity|no_has|discriminate|discriminate]. intros n [O|(? & O)]; try discriminate O; injection O; intros; congruence.
        -- eapply whole_goes; [exact W|exact Hk|no_own|no_has|discriminate|discriminate].
    + destruct p as [| | | | | |o|o| |]; try discriminate.
      * destruct (d_map c id) as [o|] eqn:Em; intros E; injection E as <- <-; (eapply whole_goes; [exact W|exact Hk|no_own| |discriminate|discriminate]); [|no_has].
        intros u [O|[O|[O|(? & O)]]]; try discriminate O. injection O as <-. exists id. auto.
      * intros E. injection E as <- <-. apply De; reflexivity.
      * intros E. injection E as <- <-. apply Er; [reflexivity|no_own|no_has].
    + destruct p as [|o| | | | | | | |]; try discriminate.
      * destruct (d_map c id) as [o|] eqn:Em; intros E; injection E as <- <-; (eapply whole_goes; [exact W|exact Hk|no_own|no_has|discriminate|discriminate]).
      * destruct (nth_error (d_objs c) o) as [b|] eqn:Eb; [|discriminate]. destruct (o_data b && ok); intros E; injection E as <- <-.
        -- eapply whole_gen with (keep := fun _ => True); [exact W|exact Hk|apply like_call|apply upd_len|auto|auto|no_own|no_has|discriminate|auto|discriminate].
        -- eapply whole_goes; [exact W|exact Hk|no_own|no_has|discriminate|discriminate].
Qed.
Lemma whole_start : whole dstart.
Proof.
  constructor; cbn [dstart d_objs d_map d_reqs]; try discriminate; intros [|?]; discriminate.
Qed.
Lemma whole_exec P tr c : dexec P tr c -> whole c.
Proof. induction 1 as [|tr c x ls c' D W Hok St]; [exact whole_start|exact (whole_step _ _ _ _ W St)]. Qed.
Lemma found_whole P tr c id o b : dexec P tr c -> d_map c id = Some o -> nth_error (d_objs c) o = Some b ->
  o_data b = true \/ exists i rep x new, nth_error (d_reqs c) i = Some (RCreate id rep x, PAdd new).
Proof. intros D Em Eb. destruct (o_data b) eqn:Ed; [left; reflexivity|right]. exact (w_broken _ (whole_exec _ _ _ D) _ _ _ Em Eb Ed). Qed.

(** ** One maker of an ID at a time: nothing is left behind, and no list is lost *)
Definition knows (objs : list obj) (m : string -> option nat) (r : request) (p : place) : Prop :=
  match r, p with
  | RCreate id _ _, PMake None => m id = None
  | RCreate id rep _, PMake (Some o) | RCreate id rep _, PDrop o _ => rep = true /\ m id = Some o
  | RCreate id rep _, PAdd _ => match m id with None => True | Some o => rep = true /\ exists b, nth_error objs o = Some b /\ o_data b = false end
  | RRestore id _ _, PGone o | RDelete id, PGone o => m id = Some o
  | RRestore id _ _, PErase _ | RRestore id _ _, PRemake | RRestore id _ _, PAdd _ | RDelete id, PErase _ => m id = None
  | _, _ => True
  end.
Definition minds (p : place) (o : nat) : Prop := owns p o \/ p = PErase o.
Record apart_inv (c : dcfg) : Prop := {
  p_one : forall i j r p r' p' id, nth_error (d_reqs c) i = Some (r, p) -> nth_error (d_reqs c) j = Some (r', p') -> maker r = Some id -> maker r' = Some id -> ~ is_end p -> ~ is_end p' -> i = j;
  p_knows : forall i r p, nth_error (d_reqs c) i = Some (r, p) -> knows (d_objs c) (d_map c) r p;
  p_kept : forall o b, nth_error (d_objs c) o = Some b -> o_data b = true -> d_map c (o_id b) = Some o \/
    exists i r p, nth_error (d_reqs c) i = Some (r, p) /\ maker r = Some (o_id b) /\ minds p o }.
Lemma end_dec p : is_end p \/ ~ is_end p.
Proof. destruct p; try (right; intros (? & E); discriminate E). left. eexists. reflexivity. Qed.
Lemma knows_end objs m r p : is_end p -> knows objs m r p.
Proof. intros (a & ->). destruct r; exact Logic.I. Qed.
Lemma apart_gen c k r p p' objs' map' : apart_inv c -> nth_error (d_reqs c) k = Some (r, p) -> ~ is_end p ->
  (forall o b, nth_error (d_objs c) o = Some b -> exists b', nth_error objs' o = Some b' /\ (o_data b = false -> o_data b' = false)) ->
  (forall id, maker r <> Some id -> map' id = d_map c id) -> knows objs' map' r p' ->
  (forall o b', nth_error objs' o = Some b' -> o_data b' = true ->
     (exists b, nth_error (d_objs c) o = Some b /\ o_data b = true /\ o_id b = o_id b' /\
       (d_map c (o_id b') = Some o \/ (maker r = Some (o_id b') /\ minds p o) -> map' (o_id b') = Some o \/ (maker r = Some (o_id b') /\ minds p' o))) \/
     (maker r = Some (o_id b') /\ minds p' o)) ->
  apart_inv (mkD objs' map' (at_place c k r p')).
Proof.
  intros P Hk Np Ob Mp Kn Ke. constructor; cbn [d_objs d_map d_reqs].
  - assert (G : forall i r1 p1, nth_error (at_place c k r p') i = Some (r1, p1) -> ~ is_end p1 -> exists p2, nth_error (d_reqs c) i = Some (r1, p2) /\ ~ is_end p2).
    { intros i r1 p1 Hi N. apply (at_cases c k r p p' i _ Hk) in Hi as [(-> & E)|(_ & Hi)]; [injection E as -> ->; exists p; auto|eauto]. }
    intros i j r1 p1 r2 p2 id Hi Hj M1 M2 N1 N2. destruct (G _ _ _ Hi N1) as (? & A & B). destruct (G _ _ _ Hj N2) as (? & C & D). exact (p_one _ P _ _ _ _ _ _ _ A C M1 M2 B D).
  - intros i r1 p1 Hi. apply (at_cases c k r p p' i _ Hk) in Hi as [(-> & E)|(N & Hi)]; [injection E as -> ->; exact Kn|].
    destruct (end_dec p1) as [E|E]; [apply knows_end, E|]. pose proof (p_knows _ P _ _ _ Hi) as K.
    assert (Mi : forall id, maker r1 = Some id -> map' id = d_map c id).
    { intros id M1. apply Mp. intros M. apply N. exact (p_one _ P _ _ _ _ _ _ _ Hi Hk M1 M E Np). }
    destruct r1 as [id rep x|id rep x|id|id x]; cbn [knows maker] in *; try rewrite (Mi id eq_refl); destruct p1; auto.
    destruct (d_map c id) as [o|]; [|exact Logic.I]. destruct K as (-> & b & Eb & Hd). split; [reflexivity|]. destruct (Ob _ _ Eb) as (b' & Eb' & X). exists b'. auto.
  - intros o b' Eb Hd. assert (X : map' (o_id b') = Some o \/ (maker r = Some (o_id b') /\ minds p' o) -> map' (o_id b') = Some o \/ exists i r0 p0, nth_error (at_place c k r p') i = Some (r0, p0) /\ maker r0 = Some (o_id b') /\ minds p0 o).
    { intros [X|X]; [left; exact X|right]. exists k, r, p'. split; [exact (at_self _ _ _ _ _ Hk)|exact X]. }
    destruct (Ke _ _ Eb Hd) as [(b & E0 & D0 & I0 & Y)|Y]; [|apply X; right; exact Y].
    destruct (p_kept _ P _ _ E0 D0) as [Z|(i & r1 & p1 & Hi & M1 & Z)]; rewrite I0 in *.
    + apply X, Y. left. exact Z.
    + destruct (Nat.eq_dec i k) as [->|N]; [rewrite Hk in Hi; injection Hi as <- <-; apply X, Y; right; auto|].
      right. exists i, r1, p1. split; [apply at_other; assumption|auto].
Qed.
Ltac no_minds := intros ? [[O|(? & O)]|O]; discriminate O.
Lemma apart_goes c k r p p' : apart_inv c -> nth_error (d_reqs c) k = Some (r, p) -> ~ is_end p -> (forall o, ~ minds p o) -> knows (d_objs c) (d_map c) r p' ->
  apart_inv (mkD (d_objs c) (d_map c) (at_place c k r p')).
Proof.
  intros P Hk Np Nm Kn. eapply apart_gen; [exact P|exact Hk|exact Np|eauto|auto|exact Kn|]. intros o b' Eb Hd. left. exists b'. repeat split; auto. intros [X|(_ & X)]; [left; exact X|destruct (Nm _ X)].
Qed.
Lemma apart_makes c k r p p' id x : apart_inv c -> nth_error (d_reqs c) k = Some (r, p) -> ~ is_end p -> (forall o, ~ minds p o) -> maker r = Some id -> minds p' (length (d_objs c)) ->
  (forall objs, knows objs (d_map c) r p') -> apart_inv (mkD (d_objs c ++ [mkO id [x] true false]) (d_map c) (at_place c k r p')).
Proof.
  intros P Hk Np Nm Mk Mi Kn. eapply apart_gen; [exact P|exact Hk|exact Np| |auto|apply Kn|].
  - intros o b E. exists b. split; [|auto]. rewrite nth_error_app1; [exact E|]. apply nth_error_Some. congruence.
  - intros o b' Eb Hd. destruct (Nat.lt_ge_cases o (length (d_objs c))) as [L|L].
    + rewrite nth_error_app1 in Eb by exact L. left. exists b'. repeat split; auto. intros [X|(_ & X)]; [left; exact X|destruct (Nm _ X)].
    + rewrite nth_error_app2 in Eb by exact L. destruct (o - length (d_objs c)) as [|[|u]] eqn:Eo; cbn in Eb; try discriminate. injection Eb as <-. right. cbn [o_id]. split; [exact Mk|].
      replace o with (length (d_objs c)) by lia. exact Mi.
Qed.
Lemma apart_adds c k r id new : whole c -> apart_inv c -> nth_error (d_reqs c) k = Some (r, PAdd new) -> maker r = Some id ->
  (forall o b, d_map c id = Some o -> nth_error (d_objs c) o = Some b -> o_data b = false) ->
  apart_inv (mkD (upd_nth new (fun b => mkO (o_id b) (o_hist b) (o_data b) true) (d_objs c)) (set_map (d_map c) id (Some new)) (at_place c k r (PEnd AOk))).
Proof.
  intros W P Hk Mk Kd. destruct (w_own _ W _ _ _ new Hk (or_introl eq_refl)) as (b0 & E0 & F0 & D0 & M0). eapply apart_gen; [exact P|exact Hk|no_end| | |apply knows_end; eexists; reflexivity|].
  - intros o b E. rewrite nth_upd_f, E. destruct (o =? new); eexists; (split; [reflexivity|auto]).
  - intros i N. unfold set_map. destruct (string_dec i id); [congruence|reflexivity].
  - intros o b' Eb Hd. left. rewrite nth_upd_f in Eb. destruct (Nat.eqb_spec o new) as [->|N].
    + rewrite E0 in Eb. injection Eb as <-. exists b0. repeat split; auto. intros _. left. cbn [o_id]. unfold set_map. destruct (string_dec (o_id b0) id); [reflexivity|congruence].
    + exists b'. repeat split; auto. intros [X|(_ & [[X|(? & X)]|X])]; try discriminate X; [|injection X; congruence]. left. unfold set_map. destruct (string_dec (o_id b') id) as [E|_]; [|exact X].
      rewrite E in X. specialize (Kd _ _ X Eb). congruence.
Qed.
Lemma apart_deletes c k r id o : apart_inv c -> nth_error (d_reqs c) k = Some (r, PGone o) -> maker r = Some id -> d_map c id = Some o ->
  (forall m, m id = None -> knows (d_objs c) m r (PErase o)) ->
  apart_inv (mkD (d_objs c) (set_map (d_map c) id None) (at_place c k r (PErase o))).
Proof.
  intros P Hk Mk Em Kn. eapply apart_gen; [exact P|exact Hk|no_end|eauto| | |].
  - intros i N. unfold set_map. destruct (string_dec i id); [congruence|reflexivity].
  - apply Kn. unfold set_map. destruct (string_dec id id); congruence.
  - intros u b' Eb Hd. left. exists b'. repeat split; auto. intros [X|(_ & [[X|(? & X)]|X])]; try discriminate X. unfold set_map. destruct (string_dec (o_id b') id) as [E|_]; [right|left; exact X].
    rewrite E in *. split; [exact Mk|]. right. congruence.
Qed.
Lemma apart_erases c k r p p' o : apart_inv c -> nth_error (d_reqs c) k = Some (r, p) -> ~ is_end p -> (forall u, minds p u -> u = o \/ minds p' u) -> knows (erase true o (d_objs c)) (d_map c) r p' ->
  apart_inv (mkD (erase true o (d_objs c)) (d_map c) (at_place c k r p')).
Proof.
  intros P Hk Np Mi Kn. eapply apart_gen; [exact P|exact Hk|exact Np| |auto|exact Kn|].
  - intros u b E. cbn [erase]. rewrite nth_upd_f, E. destruct (u =? o); eexists; (split; [reflexivity|auto]).
  - intros u b' Eb Hd. cbn [erase] in Eb. rewrite nth_upd_f in Eb. destruct (Nat.eqb_spec u o) as [->|N].
    + destruct (nth_error (d_objs c) o); [|discriminate]. injection Eb as <-. discriminate Hd.
    + left. exists b'. repeat split; auto. intros [X|(Y & X)]; [left; exact X|right]. destruct (Mi _ X) as [E|E]; [contradiction|auto].
Qed.
Lemma apart_step tr c x ls c' : dexec apart tr c -> apart_inv c -> apart c x -> dstep c x = Some (ls, c') -> apart_inv c'.
Proof.
  intros D P Hok. pose proof (whole_exec _ _ _ D) as W. destruct x as [r|k ok]; cbn [dstep].
  - intros E. injection E as <- <-. cbn [apart] in Hok.
    assert (At : forall i q, nth_error (d_reqs c ++ [(r, PStart)]) i = Some q -> nth_error (d_reqs c) i = Some q \/ (i = length (d_reqs c) /\ q = (r, PStart))).
    { intros i q E. destruct (Nat.lt_ge_cases i (length (d_reqs c))) as [L|L]; [rewrite nth_error_app1 in E by exact L; auto|].
      rewrite nth_error_app2 in E by exact L. destruct (i - length (d_reqs c)) as [|[|u]] eqn:Ei; cbn in E; try discriminate. injection E as <-. right. split; [lia|reflexivity]. }
    constructor; cbn [d_objs d_map d_reqs].
    + assert (Nb : forall i r1 p1 id, nth_error (d_reqs c) i = Some (r1, p1) -> maker r1 = Some id -> ~ is_end p1 -> maker r = Some id -> False).
      { intros i r1 p1 id Hi M1 N M. apply (Hok id M). exists i, r1, p1. repeat split; auto. intros a ->. apply N. exists a. reflexivity. }
      intros i j r1 p1 r2 p2 id Hi Hj M1 M2 N1 N2. apply At in Hi as [Hi|(-> & E)]; apply At in Hj as [Hj|(-> & E')].
      * exact (p_one _ P _ _ _ _ _ _ _ Hi Hj M1 M2 N1 N2).
      * injection E' as -> ->. destruct (Nb _ _ _ _ Hi M1 N1 M2).
      * injection E as -> ->. destruct (Nb _ _ _ _ Hj M2 N2 M1).
      * reflexivity.
    + intros i r1 p1 Hi. apply At in Hi as [Hi|(_ & E)]; [exact (p_knows _ P _ _ _ Hi)|injection E as -> ->; destruct r; exact Logic.I].
    + intros o b Eb Hd. destruct (p_kept _ P _ _ Eb Hd) as [X|(i & r1 & p1 & Hi & X)]; [left; exact X|right]. exists i, r1, p1. split; [|exact X]. rewrite nth_error_app1; [exact Hi|]. apply nth_error_Some. congruence.
  - cbn [apart] in Hok. subst ok. destruct (nth_error (d_reqs c) k) as [[r p]|] eqn:Hk; [|discriminate]. pose proof (p_knows _ P _ _ _ Hk) as K.
    destruct r as [id rep x|id rep x|id|id x].
    + destruct p as [| |old|old new|new| | | | |]; try discriminate; cbn [knows] in K.
      * destruct (d_map c id) as [o|] eqn:Em; intros E; injection E as <- <-; (eapply apart_goes; [exact P|exact Hk|no_end|no_minds|]).
        -- destruct rep; cbn; auto.
        -- exact Em.
      * intros E. injection E as <- <-. destruct old as [o|]; (eapply apart_makes; [exact P|exact Hk|no_end|no_minds|reflexivity| |]).
        -- left. right. exists o. reflexivity.
        -- intros objs. exact K.
        -- left. left. reflexivity.
        -- intros objs. cbn [knows]. rewrite K. exact Logic.I.
      * intros E. injection E as <- <-. destruct K as (-> & Em). eapply apart_erases; [exact P|exact Hk|no_end| |].
        -- intros u [[O|(? & O)]|O]; try discriminate O. injection O as _ <-. right. left. left. reflexivity.
        -- cbn [knows]. rewrite Em. split; [reflexivity|]. destruct (w_map _ W _ _ Em) as (b & Eb & _). eexists. cbn [erase]. rewrite nth_upd_f, Nat.eqb_refl, Eb. split; reflexivity.
      * intros E. injection E as <- <-. apply apart_adds; [exact W|exact P|exact Hk|reflexivity|]. intros o b Em Eb. rewrite Em in K. destruct K as (_ & b1 & Eb1 & Hd). congruence.
    + destruct p as [| | | |new| |o|o| |]; try discriminate; cbn [knows] in K.
      * destruct (d_map c id) as [o|] eqn:Em; intros E; injection E as <- <-; (eapply apart_goes; [exact P|exact Hk|no_end|no_minds|]).
        -- destruct rep; exact Logic.I.
        -- exact Em.
      * intros E. injection E as <- <-. apply apart_adds; [exact W|exact P|exact Hk|reflexivity|]. intros o b Em Eb. congruence.
      * destruct (d_map c id) as [o|] eqn:Em; intros E; injection E as <- <-; (eapply apart_goes; [exact P|exact Hk|no_end|no_minds|exact Em]).
      * intros E. injection E as <- <-. apply apart_deletes; [exact P|exact Hk|reflexivity|exact K|auto].
      * intros E. injection E as <- <-. eapply apart_erases; [exact P|exact Hk|no_end| |exact K]. intros u [[O|(? & O)]|O]; try discriminate O. injection O as <-. left. reflexivity.
      * intros E. injection E as <- <-. eapply apart_makes; [exact P|exact Hk|no_end|no_minds|reflexivity|left; left; reflexivity|intros objs; exact K].
    + destruct p as [| | | | | |o|o| |]; try discriminate; cbn [knows] in K.
      * destruct (d_map c id) as [o|] eqn:Em; intros E; injection E as <- <-; (eapply apart_goes; [exact P|exact Hk|no_end|no_minds|]); [exact Em|exact Logic.I].
      * intros E. injection E as <- <-. apply apart_deletes; [exact P|exact Hk|reflexivity|exact K|auto].
      * intros E. injection E as <- <-. eapply apart_erases; [exact P|exact Hk|no_end| |exact Logic.I]. intros u [[O|(? & O)]|O]; try discriminate O. injection O as <-. left. reflexivity.
    + destruct p as [|o| | | | | | | |]; try discriminate.
      * destruct (d_map c id) as [o|] eqn:Em; intros E; injection E as <- <-; (eapply apart_goes; [exact P|exact Hk|no_end|no_minds|exact Logic.I]).
      * destruct (nth_error (d_objs c) o) as [b|] eqn:Eb; [|discriminate]. destruct (o_data b && true); intros E; injection E as <- <-.
        -- eapply apart_gen; [exact P|exact Hk|no_end| |auto|exact Logic.I|].
           ++ intros u b1 E. rewrite nth_upd_f, E. destruct (u =? o); eexists; (split; [reflexivity|auto]).
           ++ intros u b' E Hd. left. rewrite nth_upd_f in E. destruct (Nat.eqb_spec u o) as [->|N].
              ** rewrite Eb in E. injection E as <-. exists b. cbn [o_id o_data] in *. repeat split; auto. intros [X|(X & _)]; [left; exact X|discriminate X].
              ** exists b'. repeat split; auto. intros [X|(X & _)]; [left; exact X|discriminate X].
        -- eapply apart_goes; [exact P|exact Hk|no_end|no_minds|exact Logic.I].
Qed.
Lemma apart_exec tr c : dexec apart tr c -> apart_inv c.
Proof.
  induction 1 as [|tr c x ls c' D P Hok St]; [|exact (apart_step _ _ _ _ _ D P Hok St)].
  constructor; cbn [dstart d_objs d_map d_reqs]; intros [|?]; discriminate.
Qed.
(** data that nobody can find is being taken care of *)
Lemma no_waste tr c o b : dexec apart tr c -> nth_error (d_objs c) o = Some b -> o_data b = true -> d_map c (o_id b) = Some o \/ busy c (o_id b).
Proof.
  intros D Eb Hd. destruct (p_kept _ (apart_exec _ _ D) _ _ Eb Hd) as [X|(i & r & p & Hi & M & X)]; [left; exact X|right]. exists i, r, p. repeat split; auto.
  intros a ->. destruct X as [[O|(? & O)]|O]; discriminate O.
Qed.
(** a list that is put takes the place of no list, or of one that the request was to replace and has deleted *)
Lemma no_clobber tr c i r new id o : dexec apart tr c -> nth_error (d_reqs c) i = Some (r, PAdd new) -> maker r = Some id -> d_map c id = Some o ->
  (exists x, r = RCreate id true x) /\ exists b, nth_error (d_objs c) o = Some b /\ o_data b = false.
Proof.
  intros D Hi M Em. pose proof (p_knows _ (apart_exec _ _ D) _ _ _ Hi) as K. destruct r as [id' rep x|id' rep x|id'|id' x]; cbn [knows maker] in *; try discriminate M.
  - injection M as ->. rewrite Em in K. destruct K as (-> & X). split; [exists x; reflexivity|exact X].
  - injection M as ->. congruence.
  - pose proof (whole_exec _ _ _ D) as W. destruct (inv_exec _ _ _ D) as (h & I). pose proof (v_reqs _ _ _ I _ _ _ Hi) as S. cbn in S. destruct S.
Qed.
(** ** Given runs *)
Lemma dplay_exec ok l : forall tr0 c tr c', dexec ok tr0 c -> (forall c x, ok c x) -> dplay c l = Some (tr, c') -> dexec ok (tr0 ++ tr) c'.
Proof.
  induction l as [|x l IH]; cbn [dplay]; intros tr0 c tr c' D Hok E; [injection E as <- <-; rewrite app_nil_r; exact D|].
  destruct (dstep c x) as [[ls c1]|] eqn:F; [|discriminate]. destruct (dplay c1 l) as [[t c2]|] eqn:G; [|discriminate]. injection E as <- <-.
  rewrite app_assoc. eapply IH; [|exact Hok|exact G]. econstructor; [exact D|apply Hok|exact F].
Qed.
Definition busyb (c : dcfg) (id : string) : bool :=
  existsb (fun q : request * place => match maker (fst q) with Some i => (if string_dec i id then true else false) && match snd q with PEnd _ => false | _ => true end | None => false end) (d_reqs c).
Definition apartb (c : dcfg) (x : dchoice) : bool :=
  match x with D_come r => match maker r with Some id => negb (busyb c id) | None => true end | D_go _ ok => ok end.
Lemma apartb_ok c x : apartb c x = true -> apart c x.
Proof.
  destruct x as [r|i ok]; cbn [apartb apart]; [|auto]. intros H id M. rewrite M in H. apply negb_true_iff in H. intros (i & r1 & p1 & Hi & M1 & N).
  enough (busyb c id = true) by congruence. apply existsb_exists. exists (r1, p1). split; [exact (nth_error_In _ _ Hi)|]. cbn [fst snd]. rewrite M1. destruct (string_dec id id); [|congruence].
  cbn [andb]. destruct p1; auto. destruct (N a eq_refl).
Qed.
Fixpoint dplay_apart (c : dcfg) (l : list dchoice) : bool :=
  match l with [] => true | x :: l => apartb c x && match dstep c x with Some (_, c) => dplay_apart c l | None => false end end.
Lemma dplay_apart_exec l : forall tr0 c tr c', dexec apart tr0 c -> dplay_apart c l = true -> dplay c l = Some (tr, c') -> dexec apart (tr0 ++ tr) c'.
Proof.
  induction l as [|x l IH]; cbn [dplay dplay_apart]; intros tr0 c tr c' D Hok E; [injection E as <- <-; rewrite app_nil_r; exact D|].
  apply andb_true_iff in Hok as (Ha & Hok). destruct (dstep c x) as [[ls c1]|] eqn:F; [|discriminate]. destruct (dplay c1 l) as [[t c2]|] eqn:G; [|discriminate]. injection E as <- <-.
  rewrite app_assoc. eapply IH; [|exact Hok|exact G]. econstructor; [exact D|apply apartb_ok, Ha|exact F].
Qed.
Definition endedb (c : dcfg) : bool := forallb (fun q : request * place => match snd q with PEnd _ => true | _ => false end) (d_reqs c).
Lemma endedb_ok c : endedb c = true -> ended c.
Proof. unfold endedb. rewrite forallb_forall. intros H i r p Hi. specialize (H _ (nth_error_In _ _ Hi)). cbn in H. destruct p; try discriminate H. eauto. Qed.
