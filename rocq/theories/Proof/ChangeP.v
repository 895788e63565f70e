(** One lemma for every operation that keeps the segment ranges: remove the IDs
    in [D], add the elements [A] (index: [B]). *)
From Coq Require Import Strings.String.
From Verif.Lib Require Import Prelude ListAux ListLemmas SortLemmas Perm.
From Verif.Model Require Import Element Elements Segment List.
From Verif.Spec Require Import RankSpec QuerySpec.
From Verif.Proof Require Import ElementP ElementsP ElementsThm SegP InvDef QueryP LookupP.
Open Scope N_scope.

Definition frame (s : seg) := (sg_id s, (sg_min s, sg_mintie s), (sg_max s, sg_maxtie s)).

Lemma frame_eq s t : frame s = frame t ->
  sg_id s = sg_id t /\ kmin s = kmin t /\ kmax s = kmax t /\ (widths s <-> widths t) /\
  (forall x, in_range s x <-> in_range t x) /\ sg_mintie s = sg_mintie t /\ sg_maxtie s = sg_maxtie t.
Proof.
  unfold frame. intros H. injection H as A B C D E. unfold in_range, kmin, kmax, widths.
  rewrite A, B, C, D, E. repeat split; tauto.
Qed.

Lemma frames_nth l l' i s' : map frame l' = map frame l -> nth_error l' i = Some s' ->
  exists s, nth_error l i = Some s /\ frame s' = frame s.
Proof.
  intros H Hn. assert (E : nth_error (map frame l') i = Some (frame s')) by (rewrite nth_error_map, Hn; reflexivity).
  rewrite H, nth_error_map in E. destruct (nth_error l i) as [s|]; [|discriminate].
  exists s. split; [reflexivity|]. cbn [option_map] in E. congruence.
Qed.
Lemma frames_sym_nth l l' i s : map frame l' = map frame l -> nth_error l i = Some s ->
  exists s', nth_error l' i = Some s' /\ frame s' = frame s.
Proof. intros H Hn. destruct (frames_nth l' l i s (eq_sym H) Hn) as (s' & A & B). eauto. Qed.

Lemma tile_frames : forall l l' k, map frame l' = map frame l -> tile_from k l -> tile_from k l'.
Proof.
  induction l as [|s r IH]; intros l' k H HT; [contradiction|].
  destruct l' as [|s' r']; [discriminate|]. cbn [map] in H.
  assert (HF : frame s' = frame s) by congruence. assert (Hr : map frame r' = map frame r) by congruence.
  - destruct HT as (A & B & C & D). 
    destruct (frame_eq _ _ HF) as (E1 & E2 & E3 & E4 & _).
    cbn. rewrite E2, E3, E4. split; [exact A|]. split; [exact B|]. split; [exact C|].
    destruct r as [|t r]; destruct r' as [|t' r']; try discriminate; [exact D|].
    destruct D as (D1 & D2). split; [exact D1|]. apply IH; auto.
Qed.

Lemma map_id_frames l l' : map frame l' = map frame l -> map sg_id l' = map sg_id l.
Proof.
  intros H. transitivity (map (fun f : N * (N * N) * (N * N) => fst (fst f)) (map frame l'));
    [rewrite map_map; reflexivity|]. rewrite H, map_map. reflexivity.
Qed.

Definition changed (A : element -> Prop) (D : N -> Prop) (l l' : list seg) : Prop :=
  forall i s s', nth_error l i = Some s -> nth_error l' i = Some s' ->
    ranked (sg_elems s') /\
    forall x, In x (sg_elems s') <-> (A x /\ in_range s x) \/ (In x (sg_elems s) /\ ~ D (e_id x)).

Definition apply_change (P A : element -> Prop) (D : N -> Prop) (x : element) : Prop :=
  A x \/ (P x /\ ~ D (e_id x)).

Lemma score_ok_change P A D l l' : score_ok P l -> map frame l' = map frame l -> changed A D l l' ->
  (forall x, A x -> good x /\ D (e_id x)) -> uniq A ->
  score_ok (apply_change P A D) l'.
Proof.
  intros HS HF HCh HA HU. split.
  - eapply tile_frames; [exact HF|apply HS].
  - apply Forall_forall. intros s' Hs'. apply In_nth_error in Hs' as (i & Hi).
    destruct (frames_nth _ _ _ _ HF Hi) as (s & Hs & E).
    destruct (HCh i s s' Hs Hi) as (Hr & Hx). split; [exact Hr|].
    destruct (frame_eq _ _ E) as (_ & _ & _ & _ & Er & _).
    pose proof (holds_nth _ _ _ _ (so_holds _ _ HS) Hs) as (_ & Hh).
    intros x. rewrite Hx, Hh, Er. unfold apply_change. tauto.
  - intros x [Hx|(Hx & _)]; [apply HA; exact Hx|apply (so_good _ _ HS); exact Hx].
  - intros x y [Hx|(Hx & Nx)] [Hy|(Hy & Ny)] E.
    + apply HU; auto.
    + exfalso. apply Ny. rewrite <- E. apply HA. exact Hx.
    + exfalso. apply Nx. rewrite E. apply HA. exact Hy.
    + apply (so_uniq _ _ HS); auto.
Qed.

Lemma core_change P Q ss is ss' is' A B D : core P Q ss is ->
  map frame ss' = map frame ss -> map frame is' = map frame is ->
  changed A D ss ss' -> changed B D is is' ->
  (forall x, A x -> good x /\ D (e_id x)) -> uniq A ->
  (forall q, B q -> good q /\ D (e_id q)) -> (forall q, B q -> idx_elem q) -> uniq B ->
  (forall id t, (exists q, B q /\ e_id q = id /\ e_tie q = t) <->
     (exists s x, In s ss /\ A x /\ in_range s x /\ e_id x = id /\ sg_id s = t)) ->
  core (apply_change P A D) (apply_change Q B D) ss' is'.
Proof.
  intros HC HFs HFi Hcs Hci HA HUA HB HBf HUB HL. split.
  - eapply score_ok_change; eauto. apply HC.
  - eapply score_ok_change; eauto. apply HC.
  - pose proof (c_al _ _ _ _ HC) as Hal. unfold aligned in *. rewrite Forall_forall in *.
    intros s' Hs'. apply In_nth_error in Hs' as (i & Hi).
    destruct (frames_nth _ _ _ _ HFi Hi) as (s & Hs & E).
    destruct (frame_eq _ _ E) as (_ & _ & _ & _ & _ & E1 & E2). rewrite E1, E2. apply Hal. eapply nth_error_In; eauto.
  - intros q [Hq|(Hq & _)]; [auto|]. apply (c_form _ _ _ _ HC). exact Hq.
  - rewrite (map_id_frames _ _ HFs). apply HC.
  - pose proof (c_id _ _ _ _ HC) as Hid. rewrite Forall_forall in *.
    intros s' Hs'. apply In_nth_error in Hs' as (i & Hi).
    destruct (frames_nth _ _ _ _ HFs Hi) as (s & Hs & E).
    destruct (frame_eq _ _ E) as (-> & _). apply Hid. eapply nth_error_In; eauto.
  - intros id t. split.
    + intros (q & [Hq|(Hq & Hn)] & Eid & Et).
      * destruct (proj1 (HL id t)) as (s & x & Hs & Ax & Rx & Ex & Es); [eauto|].
        apply In_nth_error in Hs as (i & Hs). destruct (frames_sym_nth _ _ _ _ HFs Hs) as (s' & Hs' & E).
        destruct (Hcs i s s' Hs Hs') as (_ & Hx). exists s', x. split; [eapply nth_error_In; eauto|].
        split; [apply Hx; auto|]. split; [exact Ex|]. destruct (frame_eq _ _ E) as (-> & _). exact Es.
      * destruct (proj1 (c_link _ _ _ _ HC id t)) as (s & x & Hs & Ix & Ex & Es); [eauto|].
        apply In_nth_error in Hs as (i & Hs). destruct (frames_sym_nth _ _ _ _ HFs Hs) as (s' & Hs' & E).
        destruct (Hcs i s s' Hs Hs') as (_ & Hx). exists s', x. split; [eapply nth_error_In; eauto|].
        split; [apply Hx; right; split; [exact Ix|congruence]|]. split; [exact Ex|].
        destruct (frame_eq _ _ E) as (-> & _). exact Es.
    + intros (s' & x & Hs' & Ix & Ex & Es). apply In_nth_error in Hs' as (i & Hs').
      destruct (frames_nth _ _ _ _ HFs Hs') as (s & Hs & E).
      destruct (frame_eq _ _ E) as (E1 & _). rewrite E1 in Es.
      destruct (Hcs i s s' Hs Hs') as (_ & Hx). apply Hx in Ix as [(Ax & Rx)|(Ix & Nx)].
      * destruct (proj2 (HL id t)) as (q & Bq & Eq & Et).
        { exists s, x. split; [eapply nth_error_In; eauto|]. auto. }
        exists q. split; [left; exact Bq|]. auto.
      * destruct (proj2 (c_link _ _ _ _ HC id t)) as (q & Hq & Eq & Et).
        { exists s, x. split; [eapply nth_error_In; eauto|]. auto. }
        exists q. split; [right; split; [exact Hq|congruence]|]. auto.
Qed.

(** ** upd_nth *)
Lemma upd_nth_length {A} i (f : A -> A) l : length (upd_nth i f l) = length l.
Proof. revert i; induction l; destruct i; cbn; auto. Qed.
Lemma upd_nth_nth {A} i j (f : A -> A) l :
  nth_error (upd_nth i f l) j = if Nat.eqb i j then option_map f (nth_error l j) else nth_error l j.
Proof.
  revert i j; induction l as [|x r IH]; intros i j; destruct i, j; cbn; auto.
  - destruct (Nat.eqb i j); reflexivity.
Qed.
Lemma upd_nth_map {A B} (g : A -> B) i f l : (forall x, g (f x) = g x) -> map g (upd_nth i f l) = map g l.
Proof. intros H. revert i; induction l as [|x r IH]; destruct i; cbn; auto; f_equal; auto. Qed.
Lemma upd_nth_ext {A} i (f g : A -> A) l : (forall x, nth_error l i = Some x -> f x = g x) -> upd_nth i f l = upd_nth i g l.
Proof.
  revert i; induction l as [|x r IH]; destruct i; cbn; intros H; auto; f_equal; auto.
Qed.

Lemma frame_set_elems f s : frame (set_elems f s) = frame s. Proof. reflexivity. Qed.
Lemma frame_touch now s : frame (touch now s) = frame s. Proof. reflexivity. Qed.
Lemma set_elems_elems f s : sg_elems (set_elems f s) = f (sg_elems s). Proof. reflexivity. Qed.

(** distinct IDs within one segment *)
Lemma score_ok_seg_ranked P l i s : score_ok P l -> nth_error l i = Some s -> ranked (sg_elems s) /\ distinct_ids (sg_elems s).
Proof.
  intros HS Hi. pose proof (holds_nth _ _ _ _ (so_holds _ _ HS) Hi) as (Hr & Hh). split; [exact Hr|].
  eapply ranked_elems_distinct; [exact Hr|apply (so_uniq _ _ HS)|]. intros x Hx. apply Hh. exact Hx.
Qed.

(** one segment can hold a given element *)
Lemma seg_unique P l i j s t x : score_ok P l -> nth_error l i = Some s -> nth_error l j = Some t ->
  in_range s x -> in_range t x -> i = j.
Proof. intros HS Hi Hj Hs Ht. eapply tile_from_unique; eauto. apply HS. Qed.
