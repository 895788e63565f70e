(** Pages of a collection that changes. *)
From Coq Require Import Strings.String Strings.Ascii.
From Verif.Lib Require Import Prelude ListAux Bytes.
From Verif.Model Require Import Lists.
From Verif.Spec Require Import ListsSpec TourSpec.
From Verif.Proof Require Import ListsP ListsBack.
Open Scope nat_scope.

Lemma precedes_trans a b c : precedes a b -> precedes b c -> precedes a c.
Proof. rewrite !precedes_blt. apply blt_trans. Qed.
Lemma members_in_ids m ids r : members m ids r -> forall l, In l r -> In (lid l) ids.
Proof. induction 1 as [|id ids l ls Hl E _ IH|id ids ls _ _ IH]; intros x Hx; [destruct Hx| |right; exact (IH _ Hx)]. destruct Hx as [<-|Hx]; [left; congruence|right; exact (IH _ Hx)]. Qed.
Lemma members_sorted m ids r : members m ids r -> StronglySorted precedes ids -> StronglySorted precedes (map lid r).
Proof.
  induction 1 as [|id ids l ls Hl E Hm IH|id ids ls _ _ IH]; intro H; [constructor| |inversion H; auto].
  inversion H; subst. cbn [map]. constructor; [auto|]. rewrite Forall_forall in *. intros x Hx. apply in_map_iff in Hx as (y & <- & Hy). apply H3. exact (members_in_ids _ _ _ Hm _ Hy).
Qed.
Lemma members_has m ids r : members m ids r -> forall id, In id ids -> there id m -> exists l, In l r /\ lid l = id.
Proof.
  induction 1 as [|i ids l ls Hl E _ IH|i ids ls Hn _ IH]; intros id Hid Ht; [destruct Hid| |].
  - destruct Hid as [<-|Hid]; [exists l; split; [left; reflexivity|exact E]|]. destruct (IH _ Hid Ht) as (x & Hx & Ex). exists x. split; [right; exact Hx|exact Ex].
  - destruct Hid as [<-|Hid]; [|exact (IH _ Hid Ht)]. destruct Ht as (l & Hl & El). exfalso. exact (Hn l Hl El).
Qed.
Lemma SS_app (a b : list bytes) : StronglySorted precedes a -> StronglySorted precedes b -> (forall x y, In x a -> In y b -> precedes x y) -> StronglySorted precedes (a ++ b).
Proof.
  induction a as [|x a IH]; intros Ha Hb H; [exact Hb|]. inversion Ha; subst. cbn [app]. constructor.
  - apply IH; [assumption|exact Hb|]. intros u v Hu Hv. apply H; [right; exact Hu|exact Hv].
  - apply Forall_app. split; [assumption|]. rewrite Forall_forall. intros y Hy. apply H; [left; reflexivity|exact Hy].
Qed.
Lemma SS_split (a b : list bytes) : StronglySorted precedes (a ++ b) -> forall x y, In x a -> In y b -> precedes x y.
Proof.
  induction a as [|z a IH]; intros H x y Hx Hy; [destruct Hx|]. cbn [app] in H. inversion H; subst. destruct Hx as [<-|Hx]; [|exact (IH H2 _ _ Hx Hy)].
  rewrite Forall_forall in H3. apply H3. apply in_or_app. right. exact Hy.
Qed.
Lemma SS_left (a b : list bytes) : StronglySorted precedes (a ++ b) -> StronglySorted precedes a.
Proof. induction a as [|z a IH]; intro H; [constructor|]. cbn [app] in H. inversion H; subst. apply Forall_app in H3 as (H3 & _). constructor; auto. Qed.

(** one page *)
Lemma page_facts v from n r p : proper_seen v -> (0 < n)%Z -> sorted_after (chosen_from v) (fetched_from v) from n = (r, p) ->
  exists A B, members (fetched_from v) A r /\ StronglySorted precedes (A ++ B) /\ after p = length B /\
    forall id, In id (A ++ B) <-> there id (chosen_from v) /\ precedes from id.
Proof.
  intros (D & _) Hn E. destruct (ascending_exists (chosen_from v) (precedes from) (precedes_dec from) D) as (L & HL).
  pose proof (c29_page _ (fetched_from v) _ _ _ D Hn HL) as H. rewrite E in H. destruct H as (HM & HA & _). destruct HL as (HS & HI).
  exists (firstn (Z.to_nat n) L), (skipn (Z.to_nat n) L). rewrite firstn_skipn. split; [exact HM|]. split; [exact HS|]. split; [exact HA|exact HI].
Qed.

Lemma c85_once n vs from R e : (0 < n)%Z -> Forall proper_seen vs -> tour n vs from R e ->
  StronglySorted precedes (map lid R) /\ Forall (precedes from) (map lid R).
Proof.
  intros Hn HV HT. induction HT as [v from r p E A0|v from p E A0|v vs from r l p R e E A0 HT IH].
  - inversion HV; subst. destruct (page_facts _ _ _ _ _ H1 Hn E) as (A & B & HM & HS & HA & HI). split.
    + exact (members_sorted _ _ _ HM (SS_left _ _ HS)).
    + rewrite Forall_forall. intros x Hx. apply in_map_iff in Hx as (y & <- & Hy). apply HI. apply in_or_app. left. exact (members_in_ids _ _ _ HM _ Hy).
  - split; constructor.
  - inversion HV; subst. specialize (IH H2). destruct IH as (I1 & I2). destruct (page_facts _ _ _ _ _ H1 Hn E) as (A & B & HM & HS & HA & HI).
    assert (S1 : StronglySorted precedes (map lid (r ++ [l]))) by exact (members_sorted _ _ _ HM (SS_left _ _ HS)).
    assert (F1 : forall x, In x (r ++ [l]) -> precedes from (lid x)) by (intros x Hx; apply HI; apply in_or_app; left; exact (members_in_ids _ _ _ HM _ Hx)).
    rewrite map_app. rewrite Forall_forall in I2. split.
    + apply SS_app; [exact S1|exact I1|]. intros x y Hx Hy. specialize (I2 y Hy). rewrite map_app in Hx, S1. apply in_app_or in Hx as [Hx|Hx].
      * apply (precedes_trans _ (lid l)); [|exact I2]. apply (SS_split _ _ S1); [exact Hx|left; reflexivity].
      * destruct Hx as [<-|[]]. exact I2.
    + apply Forall_app. split; rewrite Forall_forall; intros x Hx.
      * apply in_map_iff in Hx as (y & <- & Hy). exact (F1 _ Hy).
      * apply (precedes_trans _ (lid l)); [apply F1; apply in_or_app; right; left; reflexivity|exact (I2 _ Hx)].
Qed.
Lemma c85_kept n vs from R : (0 < n)%Z -> Forall proper_seen vs -> tour n vs from R true ->
  forall id, precedes from id -> all_along id vs -> exists l, In l R /\ lid l = id.
Proof.
  intros Hn HV HT. remember true as e eqn:Ee. revert HV Ee. induction HT as [v from r p E A0|v from p E A0|v vs from r l p R e E A0 HT IH]; intros HV Ee id Hf HA; [|discriminate|].
  - pose proof (Forall_inv HV) as Hv. destruct (Forall_inv HA) as (T1 & T2). destruct (page_facts _ _ _ _ _ Hv Hn E) as (A & B & HM & HS & HB & HI). rewrite A0 in HB. destruct B; [|discriminate].
    rewrite app_nil_r in HI. apply (members_has _ _ _ HM); [apply HI; split; assumption|exact T2].
  - pose proof (Forall_inv HV) as Hv. destruct (Forall_inv HA) as (T1 & T2). destruct (page_facts _ _ _ _ _ Hv Hn E) as (A & B & HM & HS & HB & HI).
    assert (HD : In id (A ++ B)) by (apply HI; split; assumption). apply in_app_or in HD as [HD|HD].
    + destruct (members_has _ _ _ HM id HD T2) as (x & Hx & Ex). exists x. split; [apply in_or_app; left; exact Hx|exact Ex].
    + destruct (IH (Forall_inv_tail HV) Ee id) as (x & Hx & Ex); [|exact (Forall_inv_tail HA)|exists x; split; [apply in_or_app; right; exact Hx|exact Ex]].
      apply (SS_split _ _ HS); [|exact HD]. apply (members_in_ids _ _ _ HM). apply in_or_app. right. left. reflexivity.
Qed.
Lemma c85_real n vs from R e : (0 < n)%Z -> Forall proper_seen vs -> tour n vs from R e ->
  forall l, In l R -> exists v, In v vs /\ In l (fetched_from v) /\ there (lid l) (chosen_from v).
Proof.
  intros Hn HV HT.
  assert (P : forall v from r p, proper_seen v -> sorted_after (chosen_from v) (fetched_from v) from n = (r, p) -> forall l, In l r -> In l (fetched_from v) /\ there (lid l) (chosen_from v)).
  { intros v f r p Hv E l Hl. destruct (page_facts _ _ _ _ _ Hv Hn E) as (A & B & HM & HS & HB & HI). split; [exact (members_incl _ _ _ HM _ Hl)|].
    apply HI. apply in_or_app. left. exact (members_in_ids _ _ _ HM _ Hl). }
  induction HT as [v from r p E A0|v from p E A0|v vs from r l p R e E A0 HT IH]; intros x Hx; inversion HV; subst.
  - exists v. split; [left; reflexivity|exact (P _ _ _ _ H1 E _ Hx)].
  - destruct Hx.
  - apply in_app_or in Hx as [Hx|Hx]; [exists v; split; [left; reflexivity|exact (P _ _ _ _ H1 E _ Hx)]|].
    destruct (IH H2 _ Hx) as (u & Hu & Q). exists u. split; [right; exact Hu|exact Q].
Qed.

(** lists that are made ahead of the client keep it going *)
Definition na (m : nat) : bytes := repeat "a"%char m.
Definition la (m : nat) : lst := Lst (na m) [] None 0.
Lemma na_lt m k : m < k -> precedes (na m) (na k).
Proof.
  intro H. left. exists "a"%char, (na (k - S m)). unfold na. replace k with (m + S (k - S m)) at 1 by lia. rewrite repeat_app. reflexivity.
Qed.
Definition va (m : nat) : seen := mkSeen [la (S m); la (S (S m))] [la (S m); la (S (S m))].
Lemma va_proper m : proper_seen (va m).
Proof.
  assert (D : distinct [la (S m); la (S (S m))]).
  { unfold distinct. cbn [map lid la]. constructor; [intros [H|[]]|repeat constructor; intros []].
    apply (f_equal (@length _)) in H. unfold na in H. rewrite !repeat_length in H. lia. }
  split; exact D.
Qed.
Lemma va_page m : exists p, sorted_after (chosen_from (va m)) (fetched_from (va m)) (na m) 1 = ([la (S m)], p) /\ after p = 1.
Proof.
  assert (HA : ascending (chosen_from (va m)) (precedes (na m)) [na (S m); na (S (S m))]).
  { split; [constructor; [repeat constructor|constructor; [apply na_lt; lia|constructor]]|]. intro id. rewrite in_ids. cbn [chosen_from va map lid la]. split.
    - intro H. split; [exact H|]. destruct H as [<-|[<-|[]]]; apply na_lt; lia.
    - intros (H & _). exact H. }
  pose proof (c29_exact _ _ 1 _ (proj1 (va_proper m)) eq_refl HA) as H. change (fetched_from (va m)) with (chosen_from (va m)).
  destruct (sorted_after (chosen_from (va m)) (chosen_from (va m)) (na m) 1) as [r p]. destruct H as (H1 & H2 & H3 & _). exists p. split; [|exact H3]. f_equal.
  change (Z.to_nat 1) with 1 in H1. cbn [firstn] in H1. destruct r as [|x [|y r]]; cbn [map] in H1; try discriminate. injection H1 as H1. f_equal.
  destruct (H2 x (or_introl eq_refl)) as [<-|[<-|[]]]; [reflexivity|]. cbn [lid la] in H1. apply (f_equal (@length _)) in H1. unfold na in H1. rewrite !repeat_length in H1. lia.
Qed.
Lemma endless : forall k m, exists vs R, length vs = S k /\ Forall proper_seen vs /\ Forall (fun v => length (chosen_from v) <= 2) vs /\ tour 1 vs (na m) R true.
Proof.
  induction k as [|k IH]; intro m.
  - exists [mkSeen [] []], []. repeat split; try (repeat constructor; cbn; lia). econstructor; reflexivity.
  - destruct (IH (S m)) as (vs & R & L & P & W & T). destruct (va_page m) as (p & E & A). exists (va m :: vs), (([] ++ [la (S m)]) ++ R).
    split; [cbn [length]; lia|]. split; [constructor; [apply va_proper|exact P]|]. split; [constructor; [cbn; lia|exact W]|].
    apply (tour_next 1 (va m) vs (na m) [] (la (S m)) p R true E); [rewrite A; discriminate|exact T].
Qed.
Lemma c85_endless : forall k, exists vs R, length vs = S k /\ Forall proper_seen vs /\ Forall (fun v => length (chosen_from v) <= 2) vs /\ tour 1 vs [] R true.
Proof. intro k. exact (endless k 0). Qed.
