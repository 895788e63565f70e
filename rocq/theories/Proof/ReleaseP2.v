(** Lemmas about ReleaseSegments: what calls work on, and how everything ends. *)
From Verif.Lib Require Import Prelude ListAux.
From Verif.Model Require Import Release.
From Verif.Spec Require Import ReleaseSpec.
From Verif.Proof Require Import ReleaseP.
Open Scope nat_scope.

Lemma no_fault_ok ok c : vexec ok c -> v_fault c = false.
Proof. intros X. exact (vi_fault _ (vinv_exec _ _ X)). Qed.

Definition points (p : vpc) : option nat := match p with UUse g | UUseW g | UWin g => Some g | _ => None end.
Definition at_win (p : vpc) : bool := match p with UWin _ => true | _ => false end.
Definition at_usew (p : vpc) : bool := match p with UUseW _ => true | _ => false end.
Record pinv (N : Prop) (c : vcfg) : Prop := mkPI {
  pi_v : vinv c;
  pi_ptr : forall i k p g, nth_error (v_users c) i = Some (k, p) -> points p = Some g -> N \/ v_upd k = true -> v_mem c = Some g;
  pi_two : N -> forall h i k1 p1 k2 p2, nth_error (v_users c) h = Some (k1, p1) -> nth_error (v_users c) i = Some (k2, p2) -> at_win p1 = true -> at_usew p2 = true -> False;
  pi_no : N -> forall i k p, nth_error (v_users c) i = Some (k, p) -> k <> VReset }.

(** what a step of a call does to the memory and to what it points to *)
Lemma ustep_mem c i k p a c' : ustep c i k p a = Some c' ->
  exists p', v_users c' = upd_nth i (fun _ => (k, p')) (v_users c) /\ v_rels c' = v_rels c /\
  (at_win p' = true -> p = UUpW) /\ (at_usew p' = true -> p = UWrW \/ at_usew p = true) /\
  ((v_mem c' = v_mem c /\ (points p' = None \/ points p' = points p \/ points p' = v_mem c)) \/
   ((p = UUpW \/ p = UWrW) /\ v_mem c' = points p') \/
   (at_usew p = true /\ (p' = UEnd \/ v_mem c' = points p'))).
Proof.
  intros S. destruct c as [mem next ld up rd w ft us rs].
  unfold ustep, lk_load, lk_upd, lk_read, lk_pend, lk_write in S.
  destruct a, p; try discriminate S; vred;
    try (destruct k as [b| |]; try destruct b; cbn [v_upd] in S);
    vred; try discriminate S;
    repeat match type of S with
    | context [match mem with _ => _ end] => destruct mem as [g0|]; vred; try discriminate S
    | context [if rd =? 0 then _ else _] => destruct (rd =? 0); vred; try discriminate S
    | context [if up then _ else _] => destruct up; vred; try discriminate S
    | context [if ld then _ else _] => destruct ld; vred; try discriminate S
    | context [match w with _ => _ end] => destruct w; vred; try discriminate S
    end; injection S as <-; vred; eexists; (repeat split);
    try (intros HH; discriminate HH); try (intros HH; reflexivity); try (intros HH; left; reflexivity); try (intros HH; right; reflexivity);
    first [left; split; [reflexivity|first [left; reflexivity|right; left; reflexivity|right; right; reflexivity]]
          |right; left; split; [first [left; reflexivity|right; reflexivity]|reflexivity]
          |right; right; split; [reflexivity|first [left; reflexivity|right; reflexivity]]].
Qed.

Lemma alone_w c i k p (V : vinv c) : nth_error (v_users c) i = Some (k, p) -> uW (k, p) = 1 ->
  v_w c = WHeld /\ v_read c = 0 /\ forall h k2 p2, nth_error (v_users c) h = Some (k2, p2) -> h <> i -> uW (k2, p2) = 0 /\ uR (k2, p2) = 0.
Proof.
  intros E W. pose proof (vi_held _ V) as HW. pose proof (sumf_ge uW _ _ _ E) as GE. rewrite W in GE.
  assert (HD : v_w c = WHeld) by (destruct (v_w c); try reflexivity; lia). rewrite HD in HW. pose proof (vi_excl _ V HD) as R0.
  split; [exact HD|]. split; [exact R0|]. intros h k2 p2 H2 NE.
  pose proof (sumf_two uW _ _ _ _ _ NE H2 E) as T. pose proof (sumf_ge uR _ _ _ H2) as GR. pose proof (vi_read _ V) as HR. lia.
Qed.
Lemma alone_l c i k p (V : vinv c) : nth_error (v_users c) i = Some (k, p) -> uL (k, p) = 1 ->
  forall h k2 p2, nth_error (v_users c) h = Some (k2, p2) -> h <> i -> uL (k2, p2) = 0.
Proof.
  intros E W h k2 p2 H2 NE. pose proof (vi_load _ V) as HL. pose proof (sumf_two uL _ _ _ _ _ NE H2 E) as T.
  destruct (v_load c); cbn [b2n] in HL; lia.
Qed.
Lemma alone_u c i k p (V : vinv c) : nth_error (v_users c) i = Some (k, p) -> uU (k, p) = 1 ->
  forall h k2 p2, nth_error (v_users c) h = Some (k2, p2) -> h <> i -> uU (k2, p2) = 0.
Proof.
  intros E W h k2 p2 H2 NE. pose proof (vi_upd _ V) as HL. pose proof (sumf_two uU _ _ _ _ _ NE H2 E) as T.
  destruct (v_lockupd c); cbn [b2n] in HL; lia.
Qed.

(** the memory changes under a call only if that call cannot point to it *)
Lemma pinv_u (N : Prop) c i k p a c' : pinv N c -> nth_error (v_users c) i = Some (k, p) -> ustep c i k p a = Some c' -> pinv N c'.
Proof.
  intros [V PT P2 PN] E S. pose proof (vinv_u _ _ _ _ _ _ V E S) as V'.
  destruct (ustep_mem _ _ _ _ _ _ S) as (p' & U' & R' & W1 & W2 & M).
  pose proof (vi_kfit _ V _ _ E) as KF. unfold kfit in KF. cbn [fst snd] in KF.
  assert (AT : forall h k2 p2, nth_error (v_users c') h = Some (k2, p2) -> (h = i /\ k2 = k /\ p2 = p') \/ (h <> i /\ nth_error (v_users c) h = Some (k2, p2))).
  { intros h k2 p2 H. rewrite U', at_upd in H. destruct (i =? h) eqn:Q.
    - apply Nat.eqb_eq in Q. subst h. rewrite E in H. injection H as <- <-. left; repeat split.
    - apply Nat.eqb_neq in Q. right. split; [congruence|exact H]. }
  constructor; [exact V'| | |].
  - intros h k2 p2 g H PG NU. destruct (AT _ _ _ H) as [(-> & -> & ->)|(NE & H0)].
    + destruct M as [(M1 & M2)|[(M1 & M2)|(M1 & [M2|M2])]]; [|congruence|subst p'; discriminate PG|congruence].
      rewrite M1. destruct M2 as [M2|[M2|M2]]; [congruence|exact (PT _ _ _ _ E (eq_trans (eq_sym M2) PG) NU)|congruence].
    + pose proof (PT _ _ _ _ H0 PG NU) as OLD.
      destruct M as [(M1 & _)|M]; [congruence|exfalso].
      assert (WW : uW (k, p) = 1).
      { destruct M as [([M1|M1] & _)|(M1 & _)]; [subst p; reflexivity|subst p; reflexivity|]. destruct p; try discriminate M1. reflexivity. }
      destruct (alone_w _ _ _ _ V E WW) as (_ & _ & AL). destruct (AL _ _ _ H0 NE) as (A1 & A2).
      assert (L2 : uL (k2, p2) = 1) by (destruct p2; try discriminate PG; try discriminate A1; try discriminate A2; reflexivity).
      assert (U2 : v_upd k2 = true -> uU (k2, p2) = 1) by (intros UU; destruct p2; try discriminate PG; unfold uU; cbn [fst snd]; rewrite UU; reflexivity).
      destruct M as [([M1|M1] & _)|(M1 & _)].
      * subst p. pose proof (alone_l _ _ _ _ V E eq_refl _ _ _ H0 NE). lia.
      * subst p. destruct k as [b| |]; [destruct KF| |].
        -- pose proof (alone_l _ _ _ _ V E eq_refl _ _ _ H0 NE). lia.
        -- destruct NU as [NN|UU]; [exact (PN NN _ _ _ E eq_refl)|]. pose proof (alone_u _ _ _ _ V E eq_refl _ _ _ H0 NE). specialize (U2 UU). lia.
      * destruct NU as [NN|UU].
        -- apply (P2 NN h i k2 p2 k p H0 E); [destruct p2; try discriminate PG; try discriminate A1; try discriminate A2; reflexivity|exact M1].
        -- specialize (U2 UU). assert (uU (k, p) = 1) as UP by (destruct p; try discriminate M1; destruct k; try destruct KF; reflexivity).
           pose proof (alone_u _ _ _ _ V E UP _ _ _ H0 NE). lia.
  - intros NN h j k1 p1 k2 p2 H1 H2 B1 B2.
    destruct (AT _ _ _ H1) as [(-> & -> & ->)|(NE1 & H1')]; destruct (AT _ _ _ H2) as [(-> & -> & ->)|(NE2 & H2')].
    + destruct p'; discriminate.
    + specialize (W1 B1). subst p. destruct (alone_w _ _ _ _ V E eq_refl) as (_ & _ & AL). destruct (AL _ _ _ H2' NE2) as (A1 & _). destruct p2; discriminate.
    + destruct (W2 B2) as [W|W].
      * subst p. destruct k as [b| |]; [destruct KF| |exact (PN NN _ _ _ E eq_refl)].
        pose proof (alone_l _ _ _ _ V E eq_refl _ _ _ H1' NE1). destruct p1; discriminate.
      * exact (P2 NN _ _ _ _ _ _ H1' E B1 W).
    + exact (P2 NN _ _ _ _ _ _ H1' H2' B1 B2).
  - intros NN h k2 p2 H. destruct (AT _ _ _ H) as [(-> & -> & ->)|(NE & H0)]; [exact (PN NN _ _ _ E)|exact (PN NN _ _ _ H0)].
Qed.

(** what a step of the goroutine of a release does to the memory *)
Lemma gstep_mem c j r c' : gstep c j r = Some c' ->
  v_users c' = v_users c /\ (v_mem c' = v_mem c \/ (r_g r = GFlag2 /\ r_canc r = false /\ v_mem c' = None)).
Proof.
  intros S. destruct c as [mem next ld up rd w ft us rs]. destruct r as [g m gl gs ca dn].
  unfold gstep, lk_load, lk_upd, lk_read, lk_pend, lk_write in S. vred. cbn [r_g r_m r_gotl r_gots r_canc r_done] in *.
  destruct g; try discriminate S;
    repeat match type of S with
    | context [if rd =? 0 then _ else _] => destruct (rd =? 0); vred; try discriminate S
    | context [if ld then _ else _] => destruct ld; vred; try discriminate S
    | context [if ca then _ else _] => destruct ca; vred; try discriminate S
    | context [match w with _ => _ end] => destruct w; vred; try discriminate S
    end; injection S as <-; vred; (split; [reflexivity|]); auto.
Qed.
Lemma rel_mem c x c' : (match x with V_u _ _ | V_call _ | V_g _ => False | _ => True end) -> vstep c x = Some c' -> v_mem c' = v_mem c /\ v_users c' = v_users c.
Proof.
  intros K S. destruct x as [k| |i a|j|j|j]; try destruct K; cbn [vstep] in S.
  - injection S as <-. split; reflexivity.
  - destruct (nth_error (v_rels c) j) as [r|]; [|discriminate]. destruct (r_m r); try discriminate S. injection S as <-. split; reflexivity.
  - destruct (nth_error (v_rels c) j) as [r|]; [|discriminate]. unfold mstep in S. destruct (r_m r); try discriminate S.
    + destruct (r_done r); [|discriminate S]. injection S as <-. split; reflexivity.
    + destruct (r_canc r); [injection S as <-; split; reflexivity|]. destruct (r_gots r), (r_gotl r); injection S as <-; split; reflexivity.
Qed.
(** a release that empties the memory is alone *)
Lemma rel_alone c j r : vinv c -> nth_error (v_rels c) j = Some r -> r_g r = GFlag2 ->
  (forall i k p, nth_error (v_users c) i = Some (k, p) -> works_on p = None) /\
  (r_canc r = false -> forall i k p, nth_error (v_users c) i = Some (k, p) -> points p = None).
Proof.
  intros V E G. pose proof (sumf_ge gW _ _ _ E) as GW. unfold gW at 1 in GW. rewrite G in GW.
  pose proof (vi_held _ V) as HW. assert (HD : v_w c = WHeld) by (destruct (v_w c); try reflexivity; lia). rewrite HD in HW.
  pose proof (vi_excl _ V HD) as R0. pose proof (vi_read _ V) as HR.
  assert (A : forall i k p, nth_error (v_users c) i = Some (k, p) -> works_on p = None).
  { intros i k p H. pose proof (sumf_ge uR _ _ _ H). pose proof (sumf_ge uW _ _ _ H).
    assert (uR (k, p) = 0) as Z1 by lia. assert (uW (k, p) = 0) as Z2 by lia. destruct p; try reflexivity; discriminate. }
  split; [exact A|]. intros CA i k p H. specialize (A _ _ _ H). destruct p; try reflexivity; try discriminate A.
  pose proof (sumf_ge uL _ _ _ H) as L1. cbn [uL snd] in L1. pose proof (sumf_ge gL _ _ _ E) as L2. unfold gL at 1 in L2. rewrite G, CA in L2.
  pose proof (vi_load _ V) as HL. destruct (v_load c); cbn [b2n] in HL; lia.
Qed.

Lemma pinv_exec (N : Prop) (ok : vchoice -> Prop) c : (forall x, ok x -> N -> no_reset x) -> vexec ok c -> pinv N c.
Proof.
  intros OK. induction 1 as [|c x c' X IH O S].
  - constructor; [exact vinv_start| | |]; intros; destruct i; discriminate.
  - destruct x as [k| |i a|j|j|j].
    + pose proof (vinv_step _ _ _ (pi_v _ _ IH) S) as V'. destruct IH as [V PT P2 PN]. cbn [vstep] in S. injection S as <-.
      constructor; [exact V'| | |]; cbn [v_users v_mem].
      * intros i k2 p g H PG NU. destruct (at_app _ _ _ _ H) as [H0|H0]; [exact (PT _ _ _ _ H0 PG NU)|]. injection H0 as -> ->. discriminate PG.
      * intros NN h i k1 p1 k2 p2 H1 H2 B1 B2. destruct (at_app _ _ _ _ H1) as [A|A]; [|injection A as -> ->; discriminate B1].
        destruct (at_app _ _ _ _ H2) as [B|B]; [|injection B as -> ->; discriminate B2]. exact (P2 NN _ _ _ _ _ _ A B B1 B2).
      * intros NN i k2 p H. destruct (at_app _ _ _ _ H) as [H0|H0]; [exact (PN NN _ _ _ H0)|]. injection H0 as -> ->. intros ->. exact (OK _ O NN).
    + pose proof (vinv_step _ _ _ (pi_v _ _ IH) S) as V'. destruct (rel_mem _ V_release _ Logic.I S) as (M & U). destruct IH as [V PT P2 PN].
      constructor; [exact V'| | |]; rewrite ?M, ?U; assumption.
    + cbn [vstep] in S. destruct (nth_error (v_users c) i) as [[k p]|] eqn:E; [|discriminate]. eapply pinv_u; eassumption.
    + pose proof (vinv_step _ _ _ (pi_v _ _ IH) S) as V'. cbn [vstep] in S. destruct (nth_error (v_rels c) j) as [r|] eqn:E; [|discriminate].
      destruct (gstep_mem _ _ _ _ S) as (U & [M|(G & CA & M)]); destruct IH as [V PT P2 PN]; constructor; try exact V'; rewrite ?U; try assumption.
      * rewrite M. assumption.
      * intros i k p g H PG _. destruct (rel_alone _ _ _ V E G) as (_ & A). rewrite (A CA _ _ _ H) in PG. discriminate PG.
    + pose proof (vinv_step _ _ _ (pi_v _ _ IH) S) as V'. destruct (rel_mem _ (V_time j) _ Logic.I S) as (M & U). destruct IH as [V PT P2 PN].
      constructor; [exact V'| | |]; rewrite ?M, ?U; assumption.
    + pose proof (vinv_step _ _ _ (pi_v _ _ IH) S) as V'. destruct (rel_mem _ (V_m j) _ Logic.I S) as (M & U). destruct IH as [V PT P2 PN].
      constructor; [exact V'| | |]; rewrite ?M, ?U; assumption.
Qed.
Lemma current_ok c i k p g : vexec no_reset c -> nth_error (v_users c) i = Some (k, p) -> works_on p = Some g -> v_mem c = Some g.
Proof.
  intros X E W. assert (PI : pinv True c) by (apply (pinv_exec True no_reset); [intros x H _; exact H|exact X]).
  apply (pi_ptr _ _ PI _ _ _ _ E); [|left; exact Logic.I]. destruct p; try discriminate W; exact W.
Qed.
Lemma current_upd_ok c i k p g : vexec any_v c -> nth_error (v_users c) i = Some (k, p) -> v_upd k = true -> works_on p = Some g -> v_mem c = Some g.
Proof.
  intros X E UU W. assert (PI : pinv False c) by (apply (pinv_exec False any_v); [intros x _ []|exact X]).
  apply (pi_ptr _ _ PI _ _ _ _ E); [|right; exact UU]. destruct p; try discriminate W; exact W.
Qed.
(** the caller of a release returns when it is done or when it has cancelled it *)
Lemma ret_ok ok c : vexec ok c -> forall j r, nth_error (v_rels c) j = Some r -> r_m r = MRet -> r_canc r = true \/ r_done r = true.
Proof.
  induction 1 as [|c x c' X IH _ S]; intros j r H M; [destruct j; discriminate H|].
  destruct x as [k| |i a|i|i|i].
  - cbn [vstep] in S. injection S as <-. exact (IH _ _ H M).
  - cbn [vstep] in S. injection S as <-. destruct (at_app _ _ _ _ H) as [H0| ->]; [exact (IH _ _ H0 M)|discriminate M].
  - cbn [vstep] in S. destruct (nth_error (v_users c) i) as [[k p]|]; [|discriminate]. destruct (ustep_mem _ _ _ _ _ _ S) as (_ & _ & R & _). rewrite R in H. exact (IH _ _ H M).
  - cbn [vstep] in S. destruct (nth_error (v_rels c) i) as [r0|] eqn:E; [|discriminate].
    assert (Q : exists r1, v_rels c' = upd_nth i (fun _ => r1) (v_rels c) /\ r_m r1 = r_m r0 /\ r_canc r1 = r_canc r0 /\ (r_done r0 = true -> r_done r1 = true)).
    { unfold gstep, lk_load, lk_pend, lk_write in S. destruct (r_g r0); try discriminate S.
      - destruct (v_load c); [discriminate S|]. injection S as <-. eexists. repeat split. auto.
      - destruct (r_canc r0) eqn:CA; injection S as <-; eexists; repeat split; cbn [r_canc r_m r_done]; auto.
      - destruct (v_w c); try discriminate S. injection S as <-. eexists. repeat split. auto.
      - destruct (v_read c =? 0); try discriminate S. injection S as <-. eexists. repeat split. auto.
      - destruct (r_canc r0) eqn:CA; injection S as <-; eexists; repeat split; cbn [r_canc r_m r_done]; auto. }
    destruct Q as (r1 & U & Q1 & Q2 & Q3). rewrite U, at_upd in H. destruct (i =? j) eqn:B; [|exact (IH _ _ H M)].
    apply Nat.eqb_eq in B. subst j. rewrite E in H. injection H as <-. rewrite Q1 in M. rewrite Q2. destruct (IH _ _ E M) as [A|A]; auto.
  - cbn [vstep] in S. destruct (nth_error (v_rels c) i) as [r0|] eqn:E; [|discriminate]. destruct (r_m r0) eqn:MM; try discriminate S. injection S as <-. vred.
    rewrite at_upd in H. destruct (i =? j) eqn:B; [|exact (IH _ _ H M)].
    apply Nat.eqb_eq in B. subst j. rewrite E in H. injection H as <-. discriminate M.
  - cbn [vstep] in S. destruct (nth_error (v_rels c) i) as [r0|] eqn:E; [|discriminate]. unfold mstep in S. destruct (r_m r0) eqn:MM; try discriminate S.
    + destruct (r_done r0) eqn:D; [|discriminate S]. injection S as <-. vred. rewrite at_upd in H. destruct (i =? j) eqn:B; [|exact (IH _ _ H M)].
      apply Nat.eqb_eq in B. subst j. rewrite E in H. injection H as <-. right. reflexivity.
    + destruct (r_canc r0) eqn:D.
      * injection S as <-. vred. rewrite at_upd in H. destruct (i =? j) eqn:B; [|exact (IH _ _ H M)].
        apply Nat.eqb_eq in B. subst j. rewrite E in H. injection H as <-. left. reflexivity.
      * destruct (r_gots r0), (r_gotl r0); injection S as <-; vred; (rewrite at_upd in H; destruct (i =? j) eqn:B; [|exact (IH _ _ H M)];
        apply Nat.eqb_eq in B; subst j; rewrite E in H; injection H as <-; left; reflexivity).
Qed.
Lemma emptied_ok c j r c' r' : vexec any_v c -> nth_error (v_rels c) j = Some r -> r_done r = false -> vstep c (V_g j) = Some c' -> nth_error (v_rels c') j = Some r' -> r_done r' = true ->
  r_m r <> MRet /\ v_mem c' = None /\ forall i k p, nth_error (v_users c') i = Some (k, p) -> works_on p = None.
Proof.
  intros X E D S E' D'. pose proof (vinv_exec _ _ X) as V. cbn [vstep] in S. rewrite E in S.
  destruct (gstep_mem _ _ _ _ S) as (U & _). pose proof (vi_rok _ V _ _ E) as RO. 
  assert (G : r_g r = GFlag2 /\ r_canc r = false /\ v_mem c' = None).
  { unfold gstep in S. destruct (r_g r) eqn:G; try discriminate S.
    - unfold lk_load in S. destruct (v_load c); [discriminate S|]. cbn [option_map] in S. injection S as <-. vred. rewrite at_upd, Nat.eqb_refl, E in E'. injection E' as <-. cbn [r_done] in D'. congruence.
    - destruct (r_canc r); injection S as <-; vred; rewrite at_upd, Nat.eqb_refl, E in E'; injection E' as <-; cbn [r_done] in D'; congruence.
    - unfold lk_pend in S. destruct (v_w c); try discriminate S. cbn [option_map] in S. injection S as <-. vred. rewrite at_upd, Nat.eqb_refl, E in E'. injection E' as <-. cbn [r_done] in D'. congruence.
    - unfold lk_write in S. destruct (v_read c =? 0); try discriminate S. cbn [option_map] in S. injection S as <-. vred. rewrite at_upd, Nat.eqb_refl, E in E'. injection E' as <-. cbn [r_done] in D'. congruence.
    - destruct (r_canc r); injection S as <-; vred; [rewrite at_upd, Nat.eqb_refl, E in E'; injection E' as <-; cbn [r_done] in D'; congruence|]. repeat split. }
  destruct G as (G & CA & M). split; [|split; [exact M|]].
  - intros MR. destruct (ret_ok _ _ X _ _ E MR); congruence.
  - intros i k p H. rewrite U in H. exact (proj1 (rel_alone _ _ _ V E G) _ _ _ H).
Qed.
(** a release whose caller has returned leaves the memory alone *)
Lemma late_ok c j r c' : vexec any_v c -> nth_error (v_rels c) j = Some r -> r_m r = MRet -> vstep c (V_g j) = Some c' -> v_mem c' = v_mem c.
Proof.
  intros X E M S. cbn [vstep] in S. rewrite E in S. destruct (gstep_mem _ _ _ _ S) as (_ & [A|(G & CA & _)]); [exact A|exfalso].
  destruct (ret_ok _ _ X _ _ E M) as [A|A]; [congruence|]. pose proof (vi_rok _ (vinv_exec _ _ X) _ _ E) as (_ & _ & _ & R4 & _). specialize (R4 A). congruence.
Qed.

(** the caller of a release can return by itself *)
Lemma returns_ok c j r : vexec any_v c -> nth_error (v_rels c) j = Some r ->
  exists l c' r', length l <= 2 /\ (forall x, In x l -> of_caller j x) /\ vplay c l = Some c' /\ nth_error (v_rels c') j = Some r' /\ r_m r' = MRet.
Proof.
  intros _ E.
  assert (OUT : forall c0 r0, nth_error (v_rels c0) j = Some r0 -> r_m r0 = MOut -> exists c' r', vstep c0 (V_m j) = Some c' /\ nth_error (v_rels c') j = Some r' /\ r_m r' = MRet).
  { intros c0 r0 E0 M. cbn [vstep]. rewrite E0. unfold mstep. rewrite M. destruct (r_canc r0).
    - eexists; eexists; split; [reflexivity|]. vred. rewrite at_upd, Nat.eqb_refl, E0. split; reflexivity.
    - destruct (r_gots r0), (r_gotl r0); (eexists; eexists; split; [reflexivity|]; vred; rewrite at_upd, Nat.eqb_refl, E0; split; reflexivity). }
  destruct (r_m r) eqn:M.
  - assert (S : vstep c (V_time j) = Some (r_at j (mkRel (r_g r) MOut (r_gotl r) (r_gots r) (r_canc r) (r_done r)) c)) by (cbn [vstep]; rewrite E, M; reflexivity).
    destruct (OUT (r_at j (mkRel (r_g r) MOut (r_gotl r) (r_gots r) (r_canc r) (r_done r)) c) (mkRel (r_g r) MOut (r_gotl r) (r_gots r) (r_canc r) (r_done r))) as (c' & r' & S2 & E2 & M2).
    { vred. rewrite at_upd, Nat.eqb_refl, E. reflexivity. }
    { reflexivity. }
    exists [V_time j; V_m j], c', r'. split; [simpl; lia|]. split; [intros x [<-|[<-|[]]]; reflexivity|]. split; [|split; assumption].
    cbn [vplay]. rewrite S, S2. reflexivity.
  - destruct (OUT c r E M) as (c' & r' & S2 & E2 & M2). exists [V_m j], c', r'. split; [simpl; lia|]. split; [intros x [<-|[]]; reflexivity|]. split; [|split; assumption].
    cbn [vplay]. rewrite S2. reflexivity.
  - exists [], c, r. split; [simpl; lia|]. split; [intros x []|]. split; [reflexivity|split; assumption].
Qed.

(** ** Everything ends *)
Definition urank (u : vkind * vpc) : nat :=
  match snd u with UStart => 10 | ULoad => 9 | URead => 8 | UGot => 7 | UUp => 6 | UUpP => 5 | UUpW => 4 | UWin _ => 3 | UUse _ => 1 | UWr => 5 | UWrP => 4 | UWrW => 3 | UUseW _ => 2 | UEnd => 0 end.
Definition grank (g : gpc) : nat := match g with GLoad => 5 | GFlag1 => 4 | GSegs => 3 | GPend => 2 | GFlag2 => 1 | GEnd => 0 end.
Definition mrank (m : mpc) : nat := match m with MWait => 2 | MOut => 1 | MRet => 0 end.
Definition rrank (r : rel) : nat := grank (r_g r) + mrank (r_m r).
Definition vleft (c : vcfg) : nat := sumf urank (v_users c) + sumf rrank (v_rels c).
Lemma ustep_rank c i k p c' : ustep c i k p AGo = Some c' -> exists p', v_users c' = upd_nth i (fun _ => (k, p')) (v_users c) /\ v_rels c' = v_rels c /\ urank (k, p') < urank (k, p).
Proof.
  intros S. destruct c as [mem next ld up rd w ft us rs].
  unfold ustep, lk_load, lk_upd, lk_read, lk_pend, lk_write in S.
  destruct p; try discriminate S; vred;
    try (destruct k as [b| |]; try destruct b; cbn [v_upd] in S);
    vred; try discriminate S;
    repeat match type of S with
    | context [match mem with _ => _ end] => destruct mem as [g0|]; vred; try discriminate S
    | context [if rd =? 0 then _ else _] => destruct (rd =? 0); vred; try discriminate S
    | context [if up then _ else _] => destruct up; vred; try discriminate S
    | context [if ld then _ else _] => destruct ld; vred; try discriminate S
    | context [match w with _ => _ end] => destruct w; vred; try discriminate S
    end; injection S as <-; vred; eexists; (repeat split); cbn [urank snd]; lia.
Qed.
Lemma own_rank c x c' : own_time x -> vstep c x = Some c' -> vleft c' < vleft c.
Proof.
  intros O S. unfold vleft. destruct x as [k| |i a|j|j|j]; try destruct O; cbn [vstep] in S.
  - destruct a; try destruct O. destruct (nth_error (v_users c) i) as [[k p]|] eqn:E; [|discriminate].
    destruct (ustep_rank _ _ _ _ _ S) as (p' & U & R & L). rewrite U, R. pose proof (sumf_upd urank (k, p') _ _ _ E). lia.
  - destruct (nth_error (v_rels c) j) as [r|] eqn:E; [|discriminate]. destruct c as [mem next ld up rd w ft us rs]. destruct r as [g m gl gs ca dn].
    unfold gstep, lk_load, lk_pend, lk_write in S. vred. cbn [r_g r_m r_gotl r_gots r_canc r_done] in *.
    destruct g; try discriminate S;
    repeat match type of S with
    | context [if rd =? 0 then _ else _] => destruct (rd =? 0); vred; try discriminate S
    | context [if ld then _ else _] => destruct ld; vred; try discriminate S
    | context [if ca then _ else _] => destruct ca; vred; try discriminate S
    | context [match w with _ => _ end] => destruct w; vred; try discriminate S
    end; injection S as <-; vred; match goal with |- context [upd_nth _ (fun _ => ?u) _] => pose proof (sumf_upd rrank u _ _ _ E) as Q end; unfold rrank at 2 4 in Q; cbn [r_g r_m grank] in Q; lia.
  - destruct (nth_error (v_rels c) j) as [r|] eqn:E; [|discriminate]. destruct (r_m r) eqn:M; try discriminate S. injection S as <-. vred.
    match goal with |- context [upd_nth _ (fun _ => ?u) _] => pose proof (sumf_upd rrank u _ _ _ E) as Q end. unfold rrank at 2 4 in Q; cbn [r_g r_m mrank] in Q. rewrite M in Q. cbn [mrank] in Q. lia.
  - destruct (nth_error (v_rels c) j) as [r|] eqn:E; [|discriminate]. unfold mstep in S. destruct (r_m r) eqn:M; try discriminate S.
    + destruct (r_done r); [|discriminate S]. injection S as <-. vred.
      match goal with |- context [upd_nth _ (fun _ => ?u) _] => pose proof (sumf_upd rrank u _ _ _ E) as Q end. unfold rrank at 2 4 in Q; cbn [r_g r_m mrank] in Q. rewrite M in Q. cbn [mrank] in Q. lia.
    + destruct (r_canc r); [|destruct (r_gots r), (r_gotl r)]; injection S as <-; vred;
      (match goal with |- context [upd_nth _ (fun _ => ?u) _] => pose proof (sumf_upd rrank u _ _ _ E) as Q end; unfold rrank at 2 4 in Q; cbn [r_g r_m mrank] in Q; rewrite M in Q; cbn [mrank] in Q; lia).
Qed.
Lemma bounded_ok c : exists n, forall l c', (forall x, In x l -> own_time x) -> vplay c l = Some c' -> length l <= n.
Proof.
  exists (vleft c). intros l. revert c. induction l as [|x l IH]; intros c c' O P; [simpl; lia|]. cbn [vplay] in P.
  destruct (vstep c x) as [c1|] eqn:S; [|discriminate P]. pose proof (own_rank _ _ _ (O x (or_introl eq_refl)) S) as L.
  specialize (IH c1 c' (fun y H => O y (or_intror H)) P). simpl. lia.
Qed.
Lemma sumf_zero {A} (f : A -> nat) : forall l, (forall i y, nth_error l i = Some y -> f y = 0) -> sumf f l = 0.
Proof.
  induction l as [|a l IH]; intros H; [reflexivity|]. simpl. rewrite (H 0 a eq_refl). rewrite IH; [reflexivity|]. intros i y E. exact (H (S i) y E).
Qed.
Lemma stuck_ok c : vexec any_v c -> (forall x, own x -> vstep c x = None) -> over c /\ all_free c.
Proof.
  intros X ST. pose proof (vinv_exec _ _ X) as V.
  assert (SU : forall i k p, nth_error (v_users c) i = Some (k, p) -> ustep c i k p AGo = None) by (intros i k p E; specialize (ST (V_u i AGo) Logic.I); cbn [vstep] in ST; rewrite E in ST; exact ST).
  assert (SG : forall j r, nth_error (v_rels c) j = Some r -> gstep c j r = None) by (intros j r E; specialize (ST (V_g j) Logic.I); cbn [vstep] in ST; rewrite E in ST; exact ST).
  assert (SM : forall j r, nth_error (v_rels c) j = Some r -> mstep c j r = None) by (intros j r E; specialize (ST (V_m j) Logic.I); cbn [vstep] in ST; rewrite E in ST; exact ST).
  destruct V as [HL HU HR HP HW HX HF HK HO].
  assert (A1 : forall i u, nth_error (v_users c) i = Some u -> uR u = 0 /\ uW u = 0).
  { intros i [k p] E. specialize (SU _ _ _ E). destruct p; try (split; reflexivity); cbn [ustep] in SU; destruct k; try destruct (v_mem c); discriminate SU. }
  assert (A2 : forall j r, nth_error (v_rels c) j = Some r -> r_g r <> GFlag1 /\ r_g r <> GFlag2).
  { intros j r E. specialize (SG _ _ E). unfold gstep in SG. split; intros G; rewrite G in SG; destruct (r_canc r); discriminate SG. }
  assert (R0 : v_read c = 0) by (rewrite HR; apply sumf_zero; intros i u E; exact (proj1 (A1 _ _ E))).
  rewrite (sumf_zero uW) in HW by (intros i u E; exact (proj2 (A1 _ _ E))).
  rewrite (sumf_zero gW) in HW by (intros i r E; destruct (A2 _ _ E) as (_ & B); unfold gW; destruct (r_g r); try reflexivity; congruence).
  assert (B1 : forall i u, nth_error (v_users c) i = Some u -> uP u = 0).
  { intros i [k p] E. specialize (SU _ _ _ E). destruct p; try reflexivity; cbn [ustep] in SU; unfold lk_write in SU; rewrite R0 in SU; discriminate SU. }
  assert (B2 : forall j r, nth_error (v_rels c) j = Some r -> r_g r <> GPend).
  { intros j r E. specialize (SG _ _ E). unfold gstep in SG. intros G; rewrite G in SG. unfold lk_write in SG; rewrite R0 in SG; discriminate SG. }
  rewrite (sumf_zero uP) in HP by (intros i u E; exact (B1 _ _ E)).
  rewrite (sumf_zero gP) in HP by (intros i r E; specialize (B2 _ _ E); unfold gP; destruct (r_g r); try reflexivity; congruence).
  assert (W0 : v_w c = WFree) by (destruct (v_w c); [reflexivity|discriminate HP|discriminate HW]).
  assert (C1 : forall i k p, nth_error (v_users c) i = Some (k, p) -> p = UStart \/ p = ULoad \/ p = UEnd).
  { intros i k p E. pose proof (A1 _ _ E) as (Q1 & Q2). pose proof (B1 _ _ E) as Q3. specialize (SU _ _ _ E).
    destruct p; auto; try discriminate Q1; try discriminate Q2; try discriminate Q3; exfalso; cbn [ustep] in SU; unfold lk_read, lk_pend in SU; rewrite W0 in SU; discriminate SU. }
  assert (C2 : forall j r, nth_error (v_rels c) j = Some r -> r_g r = GLoad \/ r_g r = GEnd).
  { intros j r E. pose proof (A2 _ _ E) as (Q1 & Q2). pose proof (B2 _ _ E) as Q3. specialize (SG _ _ E). unfold gstep in SG.
    destruct (r_g r); auto; try congruence. unfold lk_pend in SG. rewrite W0 in SG. discriminate SG. }
  rewrite (sumf_zero uL) in HL by (intros i [k p] E; destruct (C1 _ _ _ E) as [Z|[Z|Z]]; rewrite Z; reflexivity).
  rewrite (sumf_zero gL) in HL by (intros i r E; unfold gL; destruct (C2 _ _ E) as [Z|Z]; rewrite Z; reflexivity).
  assert (L0 : v_load c = false) by (destruct (v_load c); [discriminate HL|reflexivity]).
  assert (D1 : forall i k p, nth_error (v_users c) i = Some (k, p) -> p = UStart \/ p = UEnd).
  { intros i k p E. destruct (C1 _ _ _ E) as [Z|[Z|Z]]; auto. specialize (SU _ _ _ E). subst p. cbn [ustep] in SU. unfold lk_load in SU. rewrite L0 in SU. discriminate SU. }
  assert (D2 : forall j r, nth_error (v_rels c) j = Some r -> r_g r = GEnd).
  { intros j r E. destruct (C2 _ _ E) as [Z|Z]; auto. specialize (SG _ _ E). unfold gstep in SG. rewrite Z in SG. unfold lk_load in SG. rewrite L0 in SG. discriminate SG. }
  rewrite (sumf_zero uU) in HU by (intros i [k p] E; destruct (D1 _ _ _ E) as [Z|Z]; rewrite Z; reflexivity).
  assert (U0 : v_lockupd c = false) by (destruct (v_lockupd c); [discriminate HU|reflexivity]).
  split; [split|].
  - intros i k p E. destruct (D1 _ _ _ E) as [Z|Z]; auto. specialize (SU _ _ _ E). subst p. cbn [ustep] in SU. unfold lk_upd in SU. rewrite U0 in SU. destruct (v_upd k); discriminate SU.
  - intros j r E. pose proof (D2 _ _ E) as G. split; [exact G|]. specialize (SM _ _ E). unfold mstep in SM.
    destruct (HO _ _ E) as (_ & _ & _ & _ & R5). destruct (r_m r) eqn:M; [|destruct (r_canc r); discriminate SM|reflexivity].
    destruct (R5 G) as [D|D]; [|discriminate D]. rewrite D in SM. discriminate SM.
  - repeat split; assumption.
Qed.

(** ** A release that waits for a reader *)
Lemma play_exec (ok : vchoice -> Prop) l : forall c c', vexec ok c -> (forall x, In x l -> ok x) -> vplay c l = Some c' -> vexec ok c'.
Proof.
  induction l as [|x l IH]; intros c c' X O P; cbn [vplay] in P; [injection P as <-; exact X|].
  destruct (vstep c x) as [c1|] eqn:S; [|discriminate P]. apply (IH c1 c'); [|intros y H; apply O; right; exact H|exact P].
  eapply Vx_step; [exact X|apply O; left; reflexivity|exact S].
Qed.
Definition held (h j : nat) (c : vcfg) : Prop :=
  (exists k g, nth_error (v_users c) h = Some (k, UUse g)) /\ (exists r, nth_error (v_rels c) j = Some r /\ r_g r = GPend).
Definition waits (i : nat) (c : vcfg) : Prop := forall k p, nth_error (v_users c) i = Some (k, p) -> not_yet p = true.
Lemma held_locks h j c : vinv c -> held h j c -> v_w c = WPend /\ 0 < v_read c.
Proof.
  intros V ((k & g & E) & (r & F & G)). pose proof (sumf_ge uR _ _ _ E) as R. cbn [uR snd] in R. pose proof (sumf_ge gP _ _ _ F) as P. unfold gP at 1 in P. rewrite G in P.
  pose proof (vi_read _ V). pose proof (vi_pend _ V) as HP. split; [|lia]. destruct (v_w c); try reflexivity; lia.
Qed.
Lemma held_step h j c x c' : vinv c -> held h j c -> spares h x -> vstep c x = Some c' -> held h j c' /\ forall i, waits i c -> waits i c'.
Proof.
  intros V HH SP S. destruct (held_locks _ _ _ V HH) as (WP & RD). destruct HH as ((k & g & E) & (r & F & G)).
  destruct x as [k0| |i a|i|i|i].
  - cbn [vstep] in S. injection S as <-. split; [split|].
    + exists k, g. vred. rewrite nth_error_app1; [exact E|]. apply nth_error_Some. congruence.
    + exists r. split; [exact F|exact G].
    + intros i W k1 p1 H. vred. destruct (at_app _ _ _ _ H) as [H0|H0]; [exact (W _ _ H0)|]. injection H0 as -> ->. reflexivity.
  - cbn [vstep] in S. injection S as <-. split; [split|].
    + exists k, g. exact E.
    + exists r. split; [|exact G]. vred. rewrite nth_error_app1; [exact F|]. apply nth_error_Some. congruence.
    + intros i W k1 p1 H. exact (W _ _ H).
  - cbn [vstep] in S. cbn [spares] in SP. destruct (nth_error (v_users c) i) as [[k1 p1]|] eqn:E1; [|discriminate].
    destruct (ustep_mem _ _ _ _ _ _ S) as (p' & U & R & _ & _ & _).
    assert (NY : not_yet p1 = true -> not_yet p' = true).
    { intros N. assert (ATI : nth_error (v_users c') i = Some (k1, p')) by (rewrite U, at_upd, Nat.eqb_refl, E1; reflexivity).
      destruct c as [mem next ld up rd w ft us rs]. vred. subst w. destruct rd as [|rd]; [lia|].
      unfold ustep, lk_load, lk_upd, lk_read, lk_pend, lk_write in S. destruct p1; try discriminate N; destruct a; try discriminate S; vred; try discriminate S;
      destruct k1 as [b| |]; try destruct b; cbn [v_upd] in S; repeat match type of S with
      | context [if up then _ else _] => destruct up; vred; try discriminate S
      | context [if ld then _ else _] => destruct ld; vred; try discriminate S end; injection S as <-; vred; rewrite at_upd, Nat.eqb_refl, E1 in ATI; injection ATI as <-; reflexivity. }
    split; [split|].
    + exists k, g. rewrite U, at_upd. destruct (i =? h) eqn:B; [apply Nat.eqb_eq in B; congruence|exact E].
    + exists r. rewrite R. split; assumption.
    + intros q W k2 p2 H. rewrite U, at_upd in H. destruct (i =? q) eqn:B; [|exact (W _ _ H)]. apply Nat.eqb_eq in B. subst q. rewrite E1 in H. injection H as <- <-. apply NY. exact (W _ _ E1).
  - assert (S0 := S). cbn [vstep] in S. destruct (nth_error (v_rels c) i) as [r0|] eqn:E0; [|discriminate]. destruct (gstep_mem _ _ _ _ S) as (U & _).
    assert (NE : i <> j).
    { intros ->. rewrite F in E0. injection E0 as <-. unfold gstep in S. rewrite G in S. unfold lk_write in S. destruct (v_read c) as [|n]; [lia|]. discriminate S. }
    split; [split|].
    + exists k, g. rewrite U. exact E.
    + exists r. split; [|exact G]. unfold gstep, lk_load, lk_pend, lk_write in S. 
      destruct (r_g r0); try discriminate S;
      repeat match type of S with
      | context [if v_read c =? 0 then _ else _] => destruct (v_read c =? 0); cbn [option_map] in S; try discriminate S
      | context [if v_load c then _ else _] => destruct (v_load c); cbn [option_map] in S; try discriminate S
      | context [if r_canc r0 then _ else _] => destruct (r_canc r0); cbn [option_map] in S; try discriminate S
      | context [match v_w c with _ => _ end] => destruct (v_w c); cbn [option_map] in S; try discriminate S
      end; injection S as <-; vred; rewrite at_upd; (destruct (i =? j) eqn:B; [apply Nat.eqb_eq in B; congruence|exact F]).
    + intros q W k2 p2 H. rewrite U in H. exact (W _ _ H).
  - destruct (rel_mem _ (V_time i) _ Logic.I S) as (_ & U). cbn [vstep] in S. destruct (nth_error (v_rels c) i) as [r0|] eqn:E0; [|discriminate]. destruct (r_m r0); try discriminate S. injection S as <-.
    split; [split|].
    + exists k, g. exact E.
    + vred. destruct (i =? j) eqn:B.
      * apply Nat.eqb_eq in B. subst i. rewrite F in E0. injection E0 as <-. eexists. rewrite at_upd, Nat.eqb_refl, F. split; [reflexivity|exact G].
      * exists r. rewrite at_upd, B. split; assumption.
    + intros q W k2 p2 H. exact (W _ _ H).
  - destruct (rel_mem _ (V_m i) _ Logic.I S) as (_ & U). cbn [vstep] in S. destruct (nth_error (v_rels c) i) as [r0|] eqn:E0; [|discriminate].
    assert (Q : exists r1, v_rels c' = upd_nth i (fun _ => r1) (v_rels c) /\ r_g r1 = r_g r0).
    { unfold mstep in S. destruct (r_m r0); try discriminate S; [destruct (r_done r0); try discriminate S|destruct (r_canc r0); [|destruct (r_gots r0), (r_gotl r0)]]; injection S as <-; eexists; split; reflexivity. }
    destruct Q as (r1 & Q1 & Q2). split; [split|].
    + exists k, g. rewrite U. exact E.
    + rewrite Q1. destruct (i =? j) eqn:B.
      * apply Nat.eqb_eq in B. subst i. rewrite F in E0. injection E0 as <-. exists r1. rewrite at_upd, Nat.eqb_refl, F. split; [reflexivity|congruence].
      * exists r. rewrite at_upd, B. split; assumption.
    + intros q W k2 p2 H. rewrite U in H. exact (W _ _ H).
Qed.
Lemma waits_ok c h k g j r l c' : vexec any_v c -> nth_error (v_users c) h = Some (k, UUse g) -> nth_error (v_rels c) j = Some r -> r_g r = GPend ->
  (forall x, In x l -> spares h x) -> vplay c l = Some c' ->
  (exists r', nth_error (v_rels c') j = Some r' /\ r_g r' = GPend) /\
  forall i, (forall k p, nth_error (v_users c) i = Some (k, p) -> not_yet p = true) -> forall k p, nth_error (v_users c') i = Some (k, p) -> not_yet p = true.
Proof.
  intros X E F G SP P. assert (HH : held h j c) by (split; [exists k, g; exact E|exists r; split; assumption]). clear E F G r k g.
  assert (held h j c' /\ forall i, waits i c -> waits i c') as ((_ & A) & B); [|split; [exact A|exact B]].
  revert c X HH P. induction l as [|x l IH]; intros c X HH P; cbn [vplay] in P; [injection P as <-; split; [exact HH|auto]|].
  destruct (vstep c x) as [c1|] eqn:S; [|discriminate P]. destruct (held_step _ _ _ _ _ (vinv_exec _ _ X) HH (SP x (or_introl eq_refl)) S) as (HH1 & W1).
  destruct (IH (fun y H => SP y (or_intror H)) c1) as (HH2 & W2); [eapply Vx_step; [exact X|exact Logic.I|exact S]|exact HH1|exact P|].
  split; [exact HH2|]. intros i W. apply W2, W1, W.
Qed.

(** ** Releases that pile up *)
Definition reading : list vchoice := [V_call (VRead false); V_u 0 AGo; V_u 0 AGo; V_u 0 AGo; V_u 0 AGo; V_u 0 AGo; V_u 0 AGo; V_u 0 AGo; V_u 0 AGo].
Definition r_late (g : gpc) : rel := mkRel g MRet true false true false.
Definition pile (n : nat) : vcfg := mkV (Some 0) 1 false false 1 WPend false [(VRead false, UUse 0)] (r_late GPend :: repeat (r_late GSegs) n).
Lemma pile_0 : exists l, vplay vstart l = Some (pile 0).
Proof.
  exists (reading ++ [V_release; V_g 0; V_g 0; V_g 0; V_time 0; V_m 0]). vm_compute. reflexivity.
Qed.
Lemma at_end {A} (l : list A) x : nth_error (l ++ [x]) (length l) = Some x.
Proof. rewrite nth_error_app2 by lia. rewrite Nat.sub_diag. reflexivity. Qed.
Lemma upd_end {A} (l : list A) x y : upd_nth (length l) (fun _ => y) (l ++ [x]) = l ++ [y].
Proof. induction l as [|a l IH]; [reflexivity|]. simpl. rewrite IH. reflexivity. Qed.
Lemma repeat_end {A} (x : A) n : repeat x n ++ [x] = repeat x (S n).
Proof. induction n as [|n IH]; [reflexivity|]. simpl. rewrite IH. reflexivity. Qed.
Lemma play_app l1 : forall c l2, vplay c (l1 ++ l2) = match vplay c l1 with Some c1 => vplay c1 l2 | None => None end.
Proof.
  induction l1 as [|x l IH]; intros c l2; [reflexivity|]. cbn [vplay app]. destruct (vstep c x); [apply IH|reflexivity].
Qed.
Lemma pile_one mem next up rd w us b :
  vplay (mkV mem next false up rd w false us b) [V_release; V_g (length b); V_g (length b); V_time (length b); V_m (length b)] = Some (mkV mem next false up rd w false us (b ++ [r_late GSegs])).
Proof.
  cbn [vplay]. cbn [vstep]. vred. rewrite at_end. cbn [gstep r_g r_m r_gotl r_gots r_canc r_done]. unfold lk_load. vred. rewrite ?upd_end, at_end.
  cbn [gstep r_g r_m r_gotl r_gots r_canc r_done]. vred. rewrite ?upd_end, at_end. cbn [r_g r_m r_gotl r_gots r_canc r_done]. vred. rewrite ?upd_end, at_end.
  unfold mstep. cbn [r_g r_m r_gotl r_gots r_canc r_done]. unfold r_at, un_load. vred. rewrite ?upd_end. reflexivity.
Qed.
Lemma pile_S n : exists l, vplay (pile n) l = Some (pile (S n)).
Proof.
  eexists. unfold pile. rewrite pile_one. cbn [app]. rewrite repeat_end. reflexivity.
Qed.
Lemma piles_ok n : exists c, vexec any_v c /\ length (v_rels c) = S n /\ forall j r, nth_error (v_rels c) j = Some r -> r_m r = MRet /\ r_g r <> GEnd /\ r_done r = false.
Proof.
  exists (pile n). split; [|split].
  - assert (A : exists l, vplay vstart l = Some (pile n)).
    { induction n as [|n (l & IH)]; [exact pile_0|]. destruct (pile_S n) as (l2 & P2). exists (l ++ l2). rewrite play_app, IH. exact P2. }
    destruct A as (l & A). apply (play_exec any_v l vstart); [apply Vx_nil|intros x _; exact Logic.I|exact A].
  - cbn [pile v_rels length]. rewrite repeat_length. reflexivity.
  - intros j r H. cbn [pile v_rels] in H. destruct j as [|j]; cbn [nth_error] in H.
    + injection H as <-. repeat split; discriminate.
    + apply nth_error_In, repeat_spec in H. subst r. repeat split; discriminate.
Qed.

Lemma keeps_kind c x c' i k p : vstep c x = Some c' -> nth_error (v_users c) i = Some (k, p) -> exists p', nth_error (v_users c') i = Some (k, p').
Proof.
  intros S E. destruct x as [k0| |h a|j|j|j].
  - cbn [vstep] in S. injection S as <-. exists p. vred. rewrite nth_error_app1; [exact E|]. apply nth_error_Some. congruence.
  - destruct (rel_mem _ V_release _ Logic.I S) as (_ & U). exists p. rewrite U. exact E.
  - cbn [vstep] in S. destruct (nth_error (v_users c) h) as [[k1 p1]|] eqn:E1; [|discriminate]. destruct (ustep_mem _ _ _ _ _ _ S) as (p' & U & _).
    rewrite U, at_upd. destruct (h =? i) eqn:B; [|exists p; exact E]. apply Nat.eqb_eq in B. subst h. rewrite E. rewrite E in E1. injection E1 as <- <-. exists p'. reflexivity.
  - cbn [vstep] in S. destruct (nth_error (v_rels c) j) as [r|]; [|discriminate]. destruct (gstep_mem _ _ _ _ S) as (U & _). exists p. rewrite U. exact E.
  - destruct (rel_mem _ (V_time j) _ Logic.I S) as (_ & U). exists p. rewrite U. exact E.
  - destruct (rel_mem _ (V_m j) _ Logic.I S) as (_ & U). exists p. rewrite U. exact E.
Qed.
