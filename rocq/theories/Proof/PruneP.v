From Coq Require Import Strings.String.
From Verif.Lib Require Import Prelude ListAux.
From Verif.Model Require Import Prune.
From Verif.Spec Require Import PruneSpec.
Open Scope nat_scope.

Lemma pplay_app ev l1 : forall l2 s s', pplay ev s (l1 ++ l2) = Some s' <-> exists s1, pplay ev s l1 = Some s1 /\ pplay ev s1 l2 = Some s'.
Proof.
  induction l1 as [|x l1 IH]; intros l2 s s'; cbn [app pplay].
  - split; [intros H; exists s; auto|intros (s1 & E & H); injection E as <-; exact H].
  - destruct (pfire ev s x) as [s1|]; [apply IH|]. split; [discriminate|intros (s1 & E & _); discriminate].
Qed.
Lemma state_find s id : state_of s id = match p_find id (p_lists s) with Some a => Some (pl_keep a, pl_mem a) | None => None end.
Proof.
  unfold state_of, p_find. f_equal. induction (p_lists s) as [|a l IH]; [reflexivity|]. cbn [find].
  destruct (string_dec (pl_id a) id), (String.eqb_spec (pl_id a) id); try congruence; try exact IH.
Qed.
Lemma find_drop id k l : k <> id -> p_find id (p_drop k l) = p_find id l.
Proof.
  intros N. unfold p_find, p_drop. induction l as [|a l IH]; [reflexivity|]. cbn [filter]. destruct (String.eqb_spec (pl_id a) k) as [E|E]; cbn [negb find].
  - destruct (String.eqb_spec (pl_id a) id) as [E2|]; [congruence|exact IH].
  - destruct (String.eqb (pl_id a) id); [reflexivity|exact IH].
Qed.
Lemma find_set id k m l : p_find id (p_set k m l) = match p_find id l with
  | Some a => Some (if String.eqb id k then mkPL (pl_id a) (pl_keep a) m else a) | None => None end.
Proof.
  unfold p_find, p_set. induction l as [|a l IH]; [reflexivity|]. cbn [map find].
  destruct (String.eqb_spec (pl_id a) k) as [E|E]; cbn [pl_id].
  - destruct (String.eqb_spec (pl_id a) id) as [E2|E2]; [|exact IH]. rewrite (proj2 (String.eqb_eq id k)) by congruence. reflexivity.
  - destruct (String.eqb_spec (pl_id a) id) as [E2|E2]; [|exact IH]. destruct (String.eqb_spec id k); [congruence|reflexivity].
Qed.

(** ** what is kept *)
Lemma step_state ev s x s' id : pfire ev s x = Some s' -> ~ about id x ->
  state_of s' id = state_of s id \/ (x = K_visit id true /\ state_of s' id = Some (false, false) /\ exists m, state_of s id = Some (false, m)).
Proof.
  intros E NA. rewrite !state_find. destruct x as [| |k ok| | | |k kp m|k|k]; cbn [pfire] in E; cbn [about] in NA.
  - destruct ev; [|discriminate]. injection E as <-. left. reflexivity.
  - destruct (p_pc s), (p_tick s); try discriminate. injection E as <-. left. reflexivity.
  - destruct (p_pc s) as [|seen owed|]; try discriminate. destruct (p_find k (p_lists s)) as [a|] eqn:Ef; [|discriminate]. destruct (met k seen); [discriminate|].
    injection E as <-. cbn [p_lists]. destruct (pl_keep a) eqn:Ek, ok; cbn [negb andb]; try (left; reflexivity).
    rewrite find_set. destruct (String.eqb_spec id k) as [->|N].
    + right. rewrite Ef. cbn [pl_keep pl_mem]. rewrite Ek. split; [reflexivity|]. split; [reflexivity|eauto].
    + left. destruct (p_find id (p_lists s)); reflexivity.
  - destruct (p_pc s) as [|? []|]; try discriminate. injection E as <-. left. reflexivity.
  - injection E as <-. left. reflexivity.
  - destruct (p_pc s), (p_ask s); try discriminate. injection E as <-. left. reflexivity.
  - injection E as <-. left. cbn [p_lists]. pose proof (find_drop id k (p_lists s) NA) as FD. unfold p_find in *. cbn [find pl_id]. destruct (String.eqb_spec k id); [congruence|]. rewrite FD. reflexivity.
  - injection E as <-. left. cbn [p_lists]. rewrite find_drop by assumption. reflexivity.
  - injection E as <-. left. cbn [p_lists]. rewrite find_set. destruct (String.eqb_spec id k); [congruence|]. destruct (p_find id (p_lists s)); reflexivity.
Qed.
Lemma c87_spares ev l : forall s s' id m, pplay ev s l = Some s' -> Forall (fun x => ~ about id x) l -> state_of s id = Some (true, m) -> state_of s' id = Some (true, m).
Proof.
  induction l as [|x l IH]; intros s s' id m E HF HS; cbn [pplay] in E; [injection E as <-; exact HS|].
  destruct (pfire ev s x) as [s1|] eqn:E1; [|discriminate]. apply (IH s1 s' id m E (Forall_inv_tail HF)).
  destruct (step_state _ _ _ _ id E1 (Forall_inv HF)) as [->|(_ & _ & m' & X)]; [exact HS|congruence].
Qed.

(** ** without an interval *)
Lemma c87_off l : forall lists s', pplay false (pstart lists) l = Some s' ->
  (p_pc s' = PWait \/ p_pc s' = PStop) /\ forall x, In x l -> by_pruner x = true -> x = K_end.
Proof.
  cut (forall s, (p_pc s = PWait \/ p_pc s = PStop) -> p_tick s = false -> forall s', pplay false s l = Some s' ->
    (p_pc s' = PWait \/ p_pc s' = PStop) /\ forall x, In x l -> by_pruner x = true -> x = K_end).
  { intros H lists s' E. apply (H (pstart lists)); [left; reflexivity|reflexivity|exact E]. }
  induction l as [|x l IH]; intros s HP HT s' E; cbn [pplay] in E; [injection E as <-; split; [exact HP|intros ? []]|].
  destruct (pfire false s x) as [s1|] eqn:E1; [|discriminate].
  assert (Q : (p_pc s1 = PWait \/ p_pc s1 = PStop) /\ p_tick s1 = false /\ (by_pruner x = true -> x = K_end)).
  { destruct x as [| |k ok| | | |k kp m|k|k]; cbn [pfire] in E1; try discriminate.
    - rewrite HT in E1. destruct (p_pc s); discriminate.
    - destruct HP as [HP|HP]; rewrite HP in E1; discriminate.
    - destruct HP as [HP|HP]; rewrite HP in E1; discriminate.
    - injection E1 as <-. cbn. repeat split; auto; discriminate.
    - destruct (p_pc s), (p_ask s); try discriminate. injection E1 as <-. cbn. auto.
    - injection E1 as <-. cbn. repeat split; auto; discriminate.
    - injection E1 as <-. cbn. repeat split; [destruct HP as [-> | ->]; auto|exact HT|discriminate].
    - injection E1 as <-. cbn. repeat split; auto; discriminate. }
  destruct Q as (Q1 & Q2 & Q3). destruct (IH s1 Q1 Q2 s' E) as [R1 R2]. split; [exact R1|]. intros y [<-|Hy]; [exact Q3|apply R2, Hy].
Qed.

(** ** one round *)
Lemma strike_in a id l : In a (strike id l) <-> In a l /\ a <> id.
Proof. unfold strike. rewrite filter_In. destruct (String.eqb_spec a id); cbn; intuition congruence. Qed.
Lemma met_in id l : met id l = true <-> In id l.
Proof. unfold met. rewrite existsb_exists. split; [intros (x & H & E); apply String.eqb_eq in E; congruence|intros H; exists id; split; [exact H|apply String.eqb_refl]]. Qed.
Definition tracks (id : string) (n : nat) (there : bool) (s : pcfg) : Prop :=
  match p_pc s with
  | PRound seen owed => (In id seen /\ n = 1 /\ ~ In id owed) \/ (~ In id seen /\ n = 0 /\ (there = true -> In id owed))
  | _ => False
  end.
Lemma tally_cons f x l : tally f (x :: l) = (if f x then 1 else 0) + tally f l.
Proof. unfold tally. cbn [filter]. destruct (f x); reflexivity. Qed.
Lemma round_track ev id (there : bool) l : Forall within l -> (there = true -> Forall (fun x => x <> K_del id) l) ->
  forall s s' n, pplay ev s l = Some s' -> tracks id n there s -> tracks id (n + tally (visit_of id) l) there s'.
Proof.
  induction l as [|x l IH]; intros HW HD s s' n E HT; cbn [pplay] in E.
  - injection E as <-. rewrite Nat.add_0_r. exact HT.
  - destruct (pfire ev s x) as [s1|] eqn:E1; [|discriminate]. rewrite tally_cons, Nat.add_assoc.
    apply (IH (Forall_inv_tail HW) (fun X => Forall_inv_tail (HD X)) s1 s' _ E). destruct (Forall_inv HW) as [W1 W2].
    unfold tracks in *. destruct x as [| |k ok| | | |k kp m|k|k]; cbn [pfire] in E1; cbn [visit_of]; rewrite ?Nat.add_0_r; try discriminate.
    + destruct ev; [|discriminate]. injection E1 as <-. exact HT.
    + destruct (p_pc s) as [|seen owed|]; try contradiction. destruct (p_find k (p_lists s)) as [a|]; [|discriminate].
      destruct (met k seen) eqn:Em; [discriminate|]. injection E1 as <-. cbn [p_pc].
      assert (NM : ~ In k seen) by (intros X; apply met_in in X; congruence).
      destruct (string_dec k id) as [->|N].
      * destruct HT as [(A & B & C)|(A & B & C)]; [contradiction|]. left. split; [left; reflexivity|]. split; [lia|]. rewrite strike_in. tauto.
      * rewrite Nat.add_0_r. destruct HT as [(A & B & C)|(A & B & C)].
        -- left. split; [right; exact A|]. split; [exact B|]. rewrite strike_in. tauto.
        -- right. split; [intros [X|X]; [congruence|contradiction]|]. split; [exact B|]. intros X. apply strike_in. split; [exact (C X)|congruence].
    + injection E1 as <-. exact HT.
    + destruct (p_pc s), (p_ask s); try discriminate. contradiction.
    + injection E1 as <-. exact HT.
    + injection E1 as <-. cbn [p_pc]. destruct (p_pc s) as [|seen owed|]; try contradiction. destruct HT as [(A & B & C)|(A & B & C)].
      * left. rewrite strike_in. tauto.
      * right. split; [exact A|]. split; [exact B|]. intros X. apply strike_in. split; [exact (C X)|].
        intros ->. pose proof (Forall_inv (HD X)) as Y. apply Y. reflexivity.
    + injection E1 as <-. exact HT.
Qed.
Lemma find_ids id s : state_of s id <> None -> In id (map pl_id (p_lists s)).
Proof.
  rewrite state_find. unfold p_find. destruct (find _ (p_lists s)) as [a|] eqn:E; [|congruence]. intros _. destruct (find_some _ _ E) as [H1 H2].
  apply String.eqb_eq in H2. subst id. apply in_map, H1.
Qed.
Lemma c87_round ev s l s' id : pplay ev s (K_take :: l ++ [K_done]) = Some s' -> Forall within l ->
  tally (visit_of id) l <= 1 /\ (state_of s id <> None -> ~ In (K_del id) l -> tally (visit_of id) l = 1).
Proof.
  intros E HW. cbn [pplay] in E. destruct (pfire ev s K_take) as [s1|] eqn:E1; [|discriminate]. apply pplay_app in E. destruct E as (s2 & E2 & E3).
  cbn [pfire] in E1. destruct (p_pc s), (p_tick s); try discriminate. injection E1 as <-. split.
  - pose proof (round_track ev id false l HW ltac:(discriminate) _ _ 0 E2) as T. cbn [Nat.add] in T.
    assert (T0 : tracks id (tally (visit_of id) l) false s2). { apply T. unfold tracks. cbn [p_pc]. right. split; [intros []|]. split; [reflexivity|discriminate]. }
    unfold tracks in T0. destruct (p_pc s2); try contradiction. destruct T0 as [(_ & -> & _)|(_ & -> & _)]; lia.
  - intros HS ND. pose proof (round_track ev id true l HW) as T. specialize (T ltac:(intros _; apply Forall_forall; intros x Hx ->; contradiction) _ _ 0 E2). cbn [Nat.add] in T.
    assert (T0 : tracks id (tally (visit_of id) l) true s2). { apply T. unfold tracks. cbn [p_pc]. right. split; [intros []|]. split; [reflexivity|]. intros _. apply find_ids, HS. }
    cbn [pplay pfire] in E3. unfold tracks in T0. destruct (p_pc s2) as [|seen [|? ?]|]; try discriminate; try contradiction.
    destruct T0 as [(_ & H & _)|(_ & _ & H)]; [exact H|]. destruct (H eq_refl).
Qed.

(** ** shutdown *)
Definition busy (s : pcfg) : nat := match p_pc s with PRound _ _ => 1 | _ => 0 end.
Definition pend (s : pcfg) : nat := if p_tick s then 1 else 0.
Lemma c87_count ev l : forall s s', pplay ev s l = Some s' ->
  tally is_take l + pend s' <= pend s + tally is_tick l /\ busy s + tally is_take l = tally is_done l + busy s'.
Proof.
  induction l as [|x l IH]; intros s s' E; cbn [pplay] in E; [injection E as <-; cbn; lia|].
  destruct (pfire ev s x) as [s1|] eqn:E1; [|discriminate]. destruct (IH s1 s' E) as [I1 I2]. rewrite !tally_cons.
  assert (Q : (if is_take x then 1 else 0) + pend s1 <= pend s + (if is_tick x then 1 else 0) /\ busy s + (if is_take x then 1 else 0) = (if is_done x then 1 else 0) + busy s1).
  { unfold pend, busy. destruct x as [| |k ok| | | |k kp m|k|k]; cbn [pfire] in E1; cbn [is_take is_tick is_done].
    - destruct ev; [|discriminate]. injection E1 as <-. cbn. destruct (p_tick s), (p_pc s); lia.
    - destruct (p_pc s), (p_tick s); try discriminate. injection E1 as <-. cbn. lia.
    - destruct (p_pc s); try discriminate. destruct (p_find k (p_lists s)); [|discriminate]. destruct (met k seen); [discriminate|]. injection E1 as <-. cbn. lia.
    - destruct (p_pc s) as [|? []|]; try discriminate. injection E1 as <-. cbn. lia.
    - injection E1 as <-. cbn. lia.
    - destruct (p_pc s), (p_ask s); try discriminate. injection E1 as <-. cbn. lia.
    - injection E1 as <-. cbn. lia.
    - injection E1 as <-. cbn. destruct (p_pc s); lia.
    - injection E1 as <-. cbn. lia. }
  lia.
Qed.
Lemma c87_stop ev s l s' : pplay ev s (l ++ [K_end]) = Some s' -> p_pc s = PWait -> p_ask s' = true /\ tally is_take l = tally is_done l.
Proof.
  intros E HP. apply pplay_app in E. destruct E as (s1 & E1 & E2). cbn [pplay pfire] in E2. destruct (p_pc s1) eqn:Ep, (p_ask s1) eqn:Ea; try discriminate.
  injection E2 as <-. split; [reflexivity|]. destruct (c87_count _ _ _ _ E1) as [_ H]. unfold busy in H. rewrite HP, Ep in H. lia.
Qed.
Lemma c87_after ev l : forall s s', p_pc s = PStop -> pplay ev s l = Some s' -> p_pc s' = PStop /\ forall x, In x l -> by_pruner x = false.
Proof.
  induction l as [|x l IH]; intros s s' HP E; cbn [pplay] in E; [injection E as <-; split; [exact HP|intros ? []]|].
  destruct (pfire ev s x) as [s1|] eqn:E1; [|discriminate].
  assert (Q : p_pc s1 = PStop /\ by_pruner x = false).
  { destruct x as [| |k ok| | | |k kp m|k|k]; cbn [pfire] in E1; rewrite ?HP in E1; try discriminate; try (injection E1 as <-; cbn; auto).
    destruct ev; [|discriminate]. injection E1 as <-. cbn. auto. }
  destruct (IH s1 s' (proj1 Q) E) as [R1 R2]. split; [exact R1|]. intros y [<-|Hy]; [exact (proj2 Q)|apply R2, Hy].
Qed.

Lemma strike_le id l : length (strike id l) <= length l.
Proof. unfold strike. induction l as [|a l IH]; cbn [filter length]; [lia|]. destruct (negb (String.eqb a id)); cbn [length]; lia. Qed.
(** the pruner can always stop once it is asked: it goes on with the round it is in and stops *)
Lemma c87_can ev s : p_ask s = true -> p_pc s <> PStop -> (forall seen owed, p_pc s = PRound seen owed -> forall id, In id owed -> ~ In id seen /\ p_find id (p_lists s) <> None) ->
  exists l s', pplay ev s l = Some s' /\ p_pc s' = PStop /\ Forall (fun x => by_pruner x = true /\ is_take x = false) l.
Proof.
  intros HA HP HO. destruct (p_pc s) as [|seen owed|] eqn:Ep; [| |congruence].
  - exists [K_end]. cbn [pplay pfire]. rewrite Ep, HA. eexists. split; [reflexivity|]. split; [reflexivity|]. repeat constructor.
  - remember (length owed) as n eqn:En. revert s seen owed HA HP HO Ep En. induction n as [n IH] using lt_wf_ind. intros s seen owed HA HP HO Ep En.
    destruct owed as [|id owed].
    + exists [K_done; K_end]. cbn [pplay pfire]. rewrite Ep. cbn [pplay pfire p_pc p_ask]. rewrite HA. eexists. split; [reflexivity|]. split; [reflexivity|]. repeat constructor.
    + destruct (HO _ _ eq_refl id (or_introl eq_refl)) as [N1 N2]. destruct (p_find id (p_lists s)) as [a|] eqn:Ef; [|congruence].
      assert (Em : met id seen = false). { destruct (met id seen) eqn:X; [|reflexivity]. apply met_in in X. contradiction. }
      assert (LS : length (strike id (id :: owed)) < n).
      { subst n. cbn [strike filter]. rewrite String.eqb_refl. cbn [negb length]. pose proof (strike_le id owed) as SL. unfold strike in SL. lia. }
      destruct (IH (length (strike id (id :: owed))) LS (mkP (p_lists s) (PRound (id :: seen) (strike id (id :: owed))) (p_tick s) (p_ask s)) (id :: seen) (strike id (id :: owed)))
        as (l & s' & E & H1 & H2); [exact HA|discriminate| |reflexivity|reflexivity|].
      { intros sn ow X k Hk. cbn [p_pc] in X. injection X as <- <-. change (In k (strike id (id :: owed))) in Hk. apply strike_in in Hk. destruct Hk as [Hk NE]. destruct (HO _ _ eq_refl k Hk) as [M1 M2].
        split; [intros [X|X]; [congruence|contradiction]|exact M2]. }
      exists (K_visit id false :: l), s'. cbn [pplay pfire]. rewrite Ep, Ef, Em, andb_false_r. split; [exact E|]. split; [exact H1|]. constructor; [split; reflexivity|exact H2].
Qed.

(** a list nobody touches is out of memory at the end of a round, if its release was in time *)
Lemma visit_frees ev s id s' m : pfire ev s (K_visit id true) = Some s' -> state_of s id = Some (false, m) -> state_of s' id = Some (false, false).
Proof.
  rewrite !state_find. cbn [pfire]. destruct (p_pc s) as [|seen owed|]; try discriminate. destruct (p_find id (p_lists s)) as [a|] eqn:Ef; [|discriminate].
  destruct (met id seen); [discriminate|]. intros E H. injection H as H1 H2. injection E as <-. cbn [p_lists]. rewrite H1. cbn [negb andb].
  rewrite find_set, Ef, String.eqb_refl. cbn [pl_keep pl_mem]. rewrite H1. reflexivity.
Qed.
Lemma run_frees ev id l : forall s s' m, pplay ev s l = Some s' -> Forall (fun x => ~ about id x) l -> state_of s id = Some (false, m) ->
  (m = false \/ In (K_visit id true) l) -> state_of s' id = Some (false, false).
Proof.
  induction l as [|x l IH]; intros s s' m E HF HS HV; cbn [pplay] in E; [injection E as <-; destruct HV as [->|[]]; exact HS|].
  destruct (pfire ev s x) as [s1|] eqn:E1; [|discriminate]. pose proof (Forall_inv_tail HF) as HF'.
  destruct (step_state _ _ _ _ id E1 (Forall_inv HF)) as [X|(_ & X & _)].
  - destruct HV as [->|[->|HV]].
    + apply (IH s1 s' false E HF'); [congruence|left; reflexivity].
    + apply (IH s1 s' false E HF'); [exact (visit_frees _ _ _ _ _ E1 HS)|left; reflexivity].
    + apply (IH s1 s' m E HF'); [congruence|right; exact HV].
  - apply (IH s1 s' false E HF' X). left. reflexivity.
Qed.
Lemma tally_in id l : tally (visit_of id) l = 1 -> exists ok, In (K_visit id ok) l.
Proof.
  induction l as [|x l IH]; [discriminate|]. rewrite tally_cons. destruct (visit_of id x) eqn:E.
  - intros _. destruct x as [| |k ok| | | |k kp m|k|k]; try discriminate. cbn [visit_of] in E. destruct (string_dec k id) as [->|]; [|discriminate]. exists ok. left. reflexivity.
  - intros H. destruct (IH H) as [ok Hi]. exists ok. right. exact Hi.
Qed.
Lemma c87_frees ev s l s' id m : pplay ev s (K_take :: l ++ [K_done]) = Some s' -> Forall within l ->
  Forall (fun x => ~ about id x) l -> ~ In (K_visit id false) l -> state_of s id = Some (false, m) -> state_of s' id = Some (false, false).
Proof.
  intros E HW HA HN HS. destruct (c87_round _ _ _ _ id E HW) as [_ HR].
  assert (ND : ~ In (K_del id) l). { intros X. rewrite Forall_forall in HA. apply (HA _ X). reflexivity. }
  destruct (tally_in _ _ (HR ltac:(congruence) ND)) as [[|] Hi]; [|contradiction].
  apply (run_frees _ _ _ _ _ _ E) with (2 := HS); [|right; right; apply in_or_app; left; exact Hi].
  constructor; [intros []|]. apply Forall_app. split; [exact HA|]. constructor; [intros []|constructor].
Qed.

(** ** stopping, from every state that can come about *)
Definition owes (s : pcfg) : Prop := forall seen owed, p_pc s = PRound seen owed -> forall id, In id owed -> ~ In id seen /\ p_find id (p_lists s) <> None.
Lemma find_some_in id l : In id (map pl_id l) -> p_find id l <> None.
Proof.
  unfold p_find. induction l as [|a l IH]; [intros []|]. cbn [map find In]. intros [->|H]; [rewrite String.eqb_refl; congruence|].
  destruct (String.eqb (pl_id a) id); [congruence|apply IH, H].
Qed.
Lemma set_there id k m l : p_find id l <> None -> p_find id (p_set k m l) <> None.
Proof. rewrite find_set. destruct (p_find id l); congruence. Qed.
Lemma owes_step ev s x s' : pfire ev s x = Some s' -> owes s -> owes s'.
Proof.
  intros E HO. unfold owes in *. destruct x as [| |k ok| | | |k kp m|k|k]; cbn [pfire] in E.
  - destruct ev; [|discriminate]. injection E as <-. exact HO.
  - destruct (p_pc s), (p_tick s); try discriminate. injection E as <-. cbn [p_pc p_lists]. intros sn' ow' X id Hid. injection X as <- <-. split; [intros []|apply find_some_in, Hid].
  - destruct (p_pc s) as [|sn ow|]; try discriminate. destruct (p_find k (p_lists s)) as [a|]; [|discriminate]. destruct (met k sn); [discriminate|].
    injection E as <-. cbn [p_pc p_lists]. intros sn' ow' X id Hid. injection X as <- <-. apply strike_in in Hid. destruct Hid as [Hid N].
    destruct (HO _ _ eq_refl id Hid) as [A B]. split; [intros [X|X]; [congruence|contradiction]|]. destruct (negb (pl_keep a) && ok); [apply set_there, B|exact B].
  - destruct (p_pc s) as [|? []|]; try discriminate. injection E as <-. intros sn' ow' X. discriminate X.
  - injection E as <-. exact HO.
  - destruct (p_pc s), (p_ask s); try discriminate. injection E as <-. intros sn' ow' X. discriminate X.
  - injection E as <-. cbn [p_pc p_lists]. intros sn' ow' X id Hid. destruct (HO _ _ X id Hid) as [A B]. split; [exact A|].
    destruct (string_dec k id) as [->|N]; [unfold p_find; cbn [find pl_id]; rewrite String.eqb_refl; congruence|].
    pose proof (find_drop id k (p_lists s) N) as FD. unfold p_find in *. cbn [find pl_id]. destruct (String.eqb_spec k id); [congruence|]. rewrite FD. exact B.
  - injection E as <-. cbn [p_pc p_lists]. intros sn' ow' X id Hid. destruct (p_pc s) as [|sn ow|]; try discriminate. injection X as <- <-.
    apply strike_in in Hid. destruct Hid as [Hid N]. destruct (HO _ _ eq_refl id Hid) as [A B]. split; [exact A|]. rewrite find_drop by congruence. exact B.
  - injection E as <-. cbn [p_pc p_lists]. intros sn' ow' X id Hid. destruct (HO _ _ X id Hid) as [A B]. split; [exact A|apply set_there, B].
Qed.
Lemma owes_run ev l : forall s s', pplay ev s l = Some s' -> owes s -> owes s'.
Proof.
  induction l as [|x l IH]; intros s s' E HO; cbn [pplay] in E; [injection E as <-; exact HO|].
  destruct (pfire ev s x) as [s1|] eqn:E1; [|discriminate]. exact (IH s1 s' E (owes_step _ _ _ _ E1 HO)).
Qed.
Lemma c87_stops ev lists l s : pplay ev (pstart lists) l = Some s -> p_ask s = true -> p_pc s <> PStop ->
  exists l2 s2, pplay ev s l2 = Some s2 /\ p_pc s2 = PStop /\ Forall (fun x => by_pruner x = true /\ is_take x = false) l2.
Proof.
  intros E HA HP. apply c87_can; [exact HA|exact HP|]. apply (owes_run _ _ _ _ E). intros sn' ow' X. discriminate X.
Qed.
Lemma c87_many (a : plist) n : exists l s s', pplay true (pstart [a]) [K_ask] = Some s /\ pplay true s l = Some s' /\ tally is_take l = n /\ p_pc s' = PWait.
Proof.
  cut (forall b, pl_id b = pl_id a -> exists l s', pplay true (mkP [b] PWait false true) l = Some s' /\ tally is_take l = n /\ p_pc s' = PWait).
  { intros H. destruct (H a eq_refl) as (l & s' & E & HT & HP). exists l, (mkP [a] PWait false true), s'. repeat split; assumption. }
  induction n as [|n IH]; intros b Hb; [exists [], (mkP [b] PWait false true); repeat split|].
  destruct (IH b Hb) as (l & s' & E & HT & HP).
  exists ([K_tick; K_take; K_visit (pl_id b) false; K_done] ++ l), s'. split; [|split; [cbn [app]; rewrite !tally_cons; cbn; lia|exact HP]].
  apply pplay_app. exists (mkP [b] PWait false true). split; [|exact E].
  cbn [pplay pfire p_pc p_tick p_lists p_ask map]. unfold p_find. cbn [find]. rewrite String.eqb_refl. cbn [met existsb]. rewrite andb_false_r.
  cbn [pplay pfire p_pc strike filter]. rewrite String.eqb_refl. reflexivity.
Qed.
Lemma ask_run ev l : forall s s', pplay ev s l = Some s' -> p_ask s = false -> p_ask s' = true -> In K_ask l.
Proof.
  induction l as [|x l IH]; intros s s' E H0 H1; cbn [pplay] in E; [injection E as <-; congruence|].
  destruct (pfire ev s x) as [s1|] eqn:E1; [|discriminate]. destruct (p_ask s1) eqn:Ea; [|right; exact (IH s1 s' E Ea H1)].
  left. destruct x as [| |k ok| | | |k kp m|k|k]; cbn [pfire] in E1.
  - destruct ev; [|discriminate]. injection E1 as <-. cbn in Ea. congruence.
  - destruct (p_pc s), (p_tick s); try discriminate. injection E1 as <-. cbn in Ea. congruence.
  - destruct (p_pc s); try discriminate. destruct (p_find k (p_lists s)); [|discriminate]. destruct (met k seen); [discriminate|]. injection E1 as <-. cbn in Ea. congruence.
  - destruct (p_pc s) as [|? []|]; try discriminate. injection E1 as <-. cbn in Ea. congruence.
  - reflexivity.
  - destruct (p_pc s); try discriminate. rewrite H0 in E1. discriminate.
  - injection E1 as <-. cbn in Ea. congruence.
  - injection E1 as <-. cbn in Ea. congruence.
  - injection E1 as <-. cbn in Ea. congruence.
Qed.
Lemma c87_stop_all ev lists l l2 s' : pplay ev (pstart lists) (l ++ K_end :: l2) = Some s' ->
  In K_ask l /\ tally is_take l = tally is_done l /\ forall x, In x l2 -> by_pruner x = false.
Proof.
  intros E. apply pplay_app in E. destruct E as (s1 & E1 & E2). cbn [pplay pfire] in E2. destruct (p_pc s1) eqn:Ep, (p_ask s1) eqn:Ea; try discriminate.
  split; [exact (ask_run _ _ _ _ E1 eq_refl Ea)|]. split.
  - destruct (c87_count _ _ _ _ E1) as [_ H]. unfold busy in H. rewrite Ep in H. cbn in H. lia.
  - refine (proj2 (c87_after _ _ _ _ _ E2)). reflexivity.
Qed.
Lemma c87_rounds ev s l s' : pplay ev s l = Some s' -> tally is_take l <= (if p_tick s then 1 else 0) + tally is_tick l.
Proof. intros E. destruct (c87_count _ _ _ _ E) as [H _]. unfold pend in H. lia. Qed.
