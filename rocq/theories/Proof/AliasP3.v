(** Lemmas on Model/Alias.v: the segments and the writes of calls. *)
From Coq Require Import Strings.String.
From Verif.Lib Require Import Prelude ListAux ListLemmas Perm.
From Verif.Model Require Import Element Elements Segment List Storage Fails Alias.
From Verif.Spec Require Import RankSpec QuerySpec HistorySpec AnswerSpec AliasSpec.
From Verif.Proof Require Import ElementP ElementsP SegP InvDef ChangeP UpdateP UpdateInv DeleteP InsertP HistoryP StoreOps AliasP AliasP2.
Open Scope nat_scope.

(** [new] is what the call makes of [old], written at [ts]; [xs] its slices *)
Definition hull (s : seg) := (frame s, sg_parent s).
Record makes (now : N) (ts : list nat) (xs : list sl) (old new : list seg) : Prop := {
  mk_on : Forall2 on new xs;
  mk_hull : map hull new = map hull old;
  mk_in : forall i n, In i ts -> nth_error new i = Some n -> sg_n n = length (sg_elems n) /\ sg_upd n = now;
  mk_out : forall i, ~ In i ts -> nth_error new i = nth_error old i
}.
Lemma hull_nth a b i x y : map hull a = map hull b -> nth_error a i = Some x -> nth_error b i = Some y -> hull x = hull y.
Proof.
  intros E Hx Hy. apply (f_equal (fun l => nth_error l i)) in E. rewrite !nth_error_map, Hx, Hy in E. cbn in E. congruence.
Qed.
Lemma saved_eq now s n x e : hull n = hull s -> on n x -> sg_n n = length (sg_elems n) -> sg_upd n = now ->
  saved now s x e = set_elems (fun _ => e) n.
Proof.
  intros H (F & C) HN HU. unfold hull, frame in H. inv H. unfold saved, set_elems. f_equal; auto.
  rewrite HN, <- C. unfold cur. rewrite firstn_length. unfold fits in F. lia.
Qed.
Lemma save_at_length h fs now ts xs l : length (save_at h fs now ts xs l) = length l.
Proof. apply mapi_from_length. Qed.
Lemma F2_len {A B} (R : A -> B -> Prop) l k : Forall2 R l k -> length l = length k.
Proof. induction 1; cbn; congruence. Qed.
Lemma makes_len now ts xs old new : makes now ts xs old new -> length new = length old /\ length xs = length old.
Proof.
  intros [A B _ _]. apply F2_len in A. apply (f_equal (@length _)) in B. rewrite !map_length in B. lia.
Qed.
Lemma mem_nat i ts : existsb (Nat.eqb i) ts = true <-> In i ts.
Proof. rewrite existsb_exists. split; [intros (x & H & E); apply Nat.eqb_eq in E; subst; exact H|intros H; exists i; split; [exact H|apply Nat.eqb_refl]]. Qed.
Lemma save_at_nth h fs now ts xs old new i o n : makes now ts xs old new -> nth_error old i = Some o -> nth_error new i = Some n ->
  exists x, nth_error xs i = Some x /\ on n x /\
  nth_error (save_at h fs now ts xs old) i =
    Some (if existsb (Nat.eqb i) ts then set_elems (fun _ => shows h (fs i) (sg_elems o) x) n else n).
Proof.
  intros M Ho Hn. pose proof (F2_nth _ _ _ i (mk_on _ _ _ _ _ M)) as Hx. rewrite Hn in Hx.
  destruct (nth_error xs i) as [x|] eqn:Ex; [|contradiction]. exists x. split; [reflexivity|]. split; [exact Hx|].
  unfold save_at. rewrite nth_error_mapi, Ho. cbn [option_map]. rewrite Ex. f_equal.
  destruct (existsb (Nat.eqb i) ts) eqn:E.
  - apply mem_nat in E. destruct (mk_in _ _ _ _ _ M i n E Hn) as [E1 E2].
    apply saved_eq; auto. eapply hull_nth; [apply (mk_hull _ _ _ _ _ M)|exact Hn|exact Ho].
  - assert (~ In i ts) as Hi by (intros C; apply mem_nat in C; congruence). rewrite (mk_out _ _ _ _ _ M i Hi) in Hn. congruence.
Qed.
Lemma set_self n : set_elems (fun e => e) n = n. Proof. destruct n. reflexivity. Qed.
Lemma set_const f n : set_elems (fun _ => f (sg_elems n)) n = set_elems f n. Proof. reflexivity. Qed.
Lemma shown_same h f e : shown h f e e e = e. Proof. destruct f, h; reflexivity. Qed.
Lemma shows_shown h f old x new : cur x = new -> shows h f old x = shown h f (seen (length old) x) old new.
Proof. intros <-. unfold shows. destruct f, h; reflexivity. Qed.
Lemma save_mixed h fs now ts xs old new (part : nat -> elements -> elements -> elements -> Prop) : makes now ts xs old new ->
  (forall i o n x, nth_error old i = Some o -> nth_error new i = Some n -> nth_error xs i = Some x -> In i ts ->
     part i (sg_elems o) (sg_elems n) (seen (length (sg_elems o)) x)) ->
  (forall i e, part i e e e) ->
  mixed h fs part old new (save_at h fs now ts xs old).
Proof.
  intros M HP HP0. split; [rewrite save_at_length; symmetry; apply (makes_len _ _ _ _ _ M)|].
  intros i o n Ho Hn. destruct (save_at_nth h fs now ts xs old new i o n M Ho Hn) as (x & Ex & Hx & ->).
  destruct (existsb (Nat.eqb i) ts) eqn:E.
  - apply mem_nat in E. exists (seen (length (sg_elems o)) x). split; [eapply HP; eauto|].
    rewrite (shows_shown _ _ _ _ _ (proj2 Hx)), set_const with (f := fun e => shown h (fs i) (seen (length (sg_elems o)) x) (sg_elems o) e). reflexivity.
  - assert (~ In i ts) as Hi by (intros C; apply mem_nat in C; congruence). rewrite (mk_out _ _ _ _ _ M i Hi) in Hn.
    assert (o = n) by congruence. subst o. exists (sg_elems n). split; [apply HP0|]. f_equal.
    unfold set_elems. rewrite shown_same. destruct n; reflexivity.
Qed.
Lemma nth_ext {A} (l k : list A) : (forall i, nth_error l i = nth_error k i) -> l = k.
Proof.
  revert k. induction l as [|x l IH]; intros [|y k] H; auto; try (specialize (H 0); discriminate).
  f_equal; [specialize (H 0); cbn in H; congruence|]. apply IH. intros i. apply (H (S i)).
Qed.
(** nothing fails *)
Lemma save_clean h fs now ts xs old new : makes now ts xs old new -> (forall i, In i ts -> fs i = Kept) -> save_at h fs now ts xs old = new.
Proof.
  intros M HK. apply nth_ext. intros i. destruct (makes_len _ _ _ _ _ M) as [L1 L2].
  destruct (nth_error old i) as [o|] eqn:Ho.
  - destruct (nth_error new i) as [n|] eqn:Hn.
    2: { apply nth_error_None in Hn. assert (i < length old) by (apply nth_error_Some; congruence). lia. }
    destruct (save_at_nth h fs now ts xs old new i o n M Ho Hn) as (x & Ex & Hx & ->). f_equal.
    destruct (existsb (Nat.eqb i) ts) eqn:E; [|reflexivity]. apply mem_nat in E. rewrite (shows_shown _ _ _ _ _ (proj2 Hx)), (HK i E).
    cbn [shown]. apply (set_self n).
  - assert (nth_error new i = None) as -> by (apply nth_error_None; apply nth_error_None in Ho; lia).
    apply nth_error_None. rewrite save_at_length. apply nth_error_None. exact Ho.
Qed.
Lemma fl_ext {A B} (f g : A -> list B) : forall l, (forall x, In x l -> f x = g x) -> flat_map f l = flat_map g l.
Proof. induction l as [|x l IH]; intros H; cbn; [reflexivity|]. rewrite H by (left; reflexivity). f_equal. apply IH. intros y Hy. apply H. right. exact Hy. Qed.
(** the writes: those of the complete call that reach the store *)
Lemma save_puts h fs now xs old new : forall ts ts0, makes now ts0 xs old new -> incl ts ts0 ->
  save_writes h fs now ts xs old =
  flat_map (fun i => match nth_error new i with Some n => if reaches (fs i) then [EPut h n] else [] | None => [] end) ts.
Proof.
  intros ts ts0 M Hi. unfold save_writes. apply fl_ext. intros i Ht. destruct (makes_len _ _ _ _ _ M) as [L1 L2].
  destruct (nth_error new i) as [n|] eqn:Hn.
  - destruct (nth_error old i) as [o|] eqn:Ho.
    2: { apply nth_error_None in Ho. assert (i < length new) by (apply nth_error_Some; congruence). lia. }
    pose proof (F2_nth _ _ _ i (mk_on _ _ _ _ _ M)) as Hx. rewrite Hn in Hx. destruct (nth_error xs i) as [x|] eqn:Ex; [|contradiction].
    destruct (mk_in _ _ _ _ _ M i n (Hi _ Ht) Hn) as [E1 E2]. rewrite (saved_eq now o n x (cur x)); auto.
    + rewrite (proj2 Hx). replace (set_elems (fun _ => sg_elems n) n) with n by (destruct n; reflexivity). reflexivity.
    + eapply hull_nth; [apply (mk_hull _ _ _ _ _ M)|exact Hn|exact Ho].
  - assert (nth_error xs i = None) as -> by (apply nth_error_None; apply nth_error_None in Hn; lia). reflexivity.
Qed.

(** ** deletes *)
Lemma filter_seen p e room : seen (length e) (sl_filter p (sl_of room e)) = filter p e ++ skipn (length (filter p e)) e.
Proof.
  unfold sl_of. rewrite sl_filter_form. unfold seen. cbn [sl_left sl_cells].
  assert (FL : length (filter p e) <= length e) by (clear; induction e as [|x l IH]; cbn; [lia|]; destruct (p x); cbn; lia).
  rewrite firstn_app, firstn_all2 by lia. f_equal. rewrite skipn_app.
  rewrite firstn_app, firstn_all2 by (rewrite skipn_length; lia).
  rewrite skipn_length. replace (length e - length (filter p e) - (length e - length (filter p e))) with 0 by lia. cbn. apply app_nil_r.
Qed.
Lemma part_delete_same i e : part_delete i e e e.
Proof. unfold part_delete. rewrite skipn_all, app_nil_r. reflexivity. Qed.
Lemma delete_idx_makes now sc room s ids : let s1 := reindex s in
  makes now (touched_idx (ss_idx s1) (ss_segs s1) ids) (delete_idx_sl room s1 ids) (ss_segs s1) (ss_segs (fst (delete_elements_idx now sc s ids))).
Proof.
  cbn zeta. destruct (delete_idx_kept now sc s ids) as ((K1 & K2) & K3 & _). cbn zeta in *. split.
  - apply delete_idx_on.
  - unfold delete_elements_idx. cbn [fst set_segs ss_segs]. apply mapi_same. intros i x. destruct (ids_for _ i ids); reflexivity.
  - intros i n Hi. unfold delete_elements_idx. cbv zeta. cbn [fst set_segs ss_segs]. rewrite nth_error_mapi.
    apply filter_In in Hi as [_ Hi]. destruct (nth_error (ss_segs (reindex s)) i); [|discriminate]. cbn [option_map]. intros E. inv E.
    destruct (ids_for (ss_idx (reindex s)) i ids); [discriminate|]. split; reflexivity.
  - exact K2.
Qed.
Lemma delete_idx_part now sc room s ids i o n x : let s1 := reindex s in
  nth_error (ss_segs s1) i = Some o -> nth_error (ss_segs (fst (delete_elements_idx now sc s ids))) i = Some n ->
  nth_error (delete_idx_sl room s1 ids) i = Some x -> part_delete i (sg_elems o) (sg_elems n) (seen (length (sg_elems o)) x).
Proof.
  cbn zeta. unfold delete_elements_idx, delete_idx_sl. cbv zeta. cbn [fst set_segs ss_segs]. rewrite !nth_error_mapi.
  intros ->. cbn [option_map]. intros E1 E2. inv E1. inv E2. destruct (ids_for (ss_idx (reindex s)) i ids).
  - unfold part_delete, seen, sl_of. cbn [sl_left sl_cells]. rewrite firstn_app_len, skipn_all, app_nil_r. reflexivity.
  - apply filter_seen.
Qed.
Lemma walk_in now (f : list seg -> elements -> list seg) (g : seg -> elements -> nat -> nat -> seg) :
  (forall ins, f [] ins = []) ->
  (forall s r ins, f (s :: r) ins = let '(a, b) := filter_idx s ins in
     if Nat.eqb a b then s :: f r ins else touch now (g s ins a b) :: f r (skipn b ins)) ->
  forall l i ins j n, In (i + j) (touched_from i l ins) -> nth_error (f l ins) j = Some n -> sg_n n = length (sg_elems n) /\ sg_upd n = now.
Proof.
  intros F0 F1. induction l as [|s r IH]; intros i ins j n; cbn [touched_from]; [contradiction|].
  rewrite F1. destruct (filter_idx s ins) as (a & b). destruct (Nat.eqb a b).
  - intros H. destruct j as [|j]; [apply touched_from_ge in H; lia|]. cbn [nth_error]. apply (IH (S i)). replace (S i + j) with (i + S j) by lia. exact H.
  - destruct j as [|j].
    + intros _ E. inv E. split; reflexivity.
    + intros [H|H]; [lia|]. cbn [nth_error]. apply (IH (S i)). replace (S i + j) with (i + S j) by lia. exact H.
Qed.
Lemma map_pair {A B C} (f : A -> B) (g : A -> C) : forall a b, map f a = map f b -> map g a = map g b -> map (fun x => (f x, g x)) a = map (fun x => (f x, g x)) b.
Proof. induction a as [|x a IH]; intros [|y b] E1 E2; try discriminate; [reflexivity|]. inv E1. inv E2. cbn. f_equal; [congruence|apply IH; assumption]. Qed.
Lemma delete_sorted_makes now room l ins : makes now (touched_from 0 l ins) (delete_sorted_sl room 0 l ins) l (delete_sorted now l ins).
Proof.
  destruct (delete_sorted_kept now l ins) as ((K1 & K2) & K3). split.
  - apply delete_sorted_on.
  - apply map_pair; [exact K1|exact K3].
  - intros i n Hi. apply (walk_in now (delete_sorted now) (fun s ins a b => set_elems (filter (fun e => negb (mem_id (e_id e) (map e_id (slice ins a b))))) s)) with (i := 0);
      [reflexivity|reflexivity|exact Hi].
  - exact K2.
Qed.
Lemma delete_sorted_part now room : forall l k ins i o n x,
  nth_error l i = Some o -> nth_error (delete_sorted now l ins) i = Some n ->
  nth_error (delete_sorted_sl room k l ins) i = Some x -> part_delete i (sg_elems o) (sg_elems n) (seen (length (sg_elems o)) x).
Proof.
  induction l as [|s l IH]; intros k ins i o n x; [destruct i; discriminate|]. cbn [delete_sorted delete_sorted_sl].
  destruct (filter_idx s ins) as [a b]. destruct (Nat.eqb a b), i as [|i]; cbn [nth_error]; try apply IH; intros E1 E2 E3; inv E1; inv E2; inv E3.
  - unfold part_delete, seen, sl_of. cbn [sl_left sl_cells]. rewrite firstn_app_len, skipn_all, app_nil_r. reflexivity.
  - apply filter_seen.
Qed.

(** ** inserts *)
Lemma part_insert_same room i e : part_insert room i e e e.
Proof. unfold part_insert. destruct (_ && _); [rewrite firstn_all|]; reflexivity. Qed.
Lemma merge_seen ins e room : ranked ins ->
  seen (length e) (sl_merge ins (sl_of room e)) =
  if Nat.leb (length (merge_copy e ins)) (length e + length room) && Nat.leb (length (merge_copy e ins)) 1000 && Nat.leb (length (merge_copy e ins)) (length e + 10)
  then firstn (length e) (merge_copy e ins) else e.
Proof.
  intros Hr. unfold sl_of. rewrite sl_merge_form by exact Hr. rewrite merge_copy_len. destruct ins as [|x r].
  - rewrite merge_copy_nil_r. unfold seen. cbn [sl_left sl_cells]. rewrite firstn_app_len, firstn_all. destruct (_ && _); reflexivity.
  - set (ins := x :: r) in *.
    assert (E : (Nat.leb (length e + length ins) (length e + length room) && Nat.leb (length e + length ins) 1000 && Nat.leb (length e + length ins) (length e + 10)) =
      negb (Nat.ltb 1000 (length ins + length e) || Nat.ltb 10 (length ins) || Nat.ltb (length room) (length ins))).
    { apply Bool.eq_true_iff_eq. rewrite !andb_true_iff, negb_true_iff, !orb_false_iff, !Nat.leb_le, !Nat.ltb_ge. lia. }
    rewrite E. destruct (_ || _ || _); cbn [negb]; unfold seen; cbn [sl_left sl_cells].
    + apply firstn_app_len.
    + rewrite firstn_app. replace (length e - length (merge_copy e ins)) with 0 by (rewrite merge_copy_len; lia). cbn. apply app_nil_r.
Qed.
Lemma insert_sorted_makes now room l ins : ranked ins ->
  makes now (touched_from 0 l ins) (insert_sl room 0 l ins) l (fst (insert_sorted now l ins)).
Proof.
  intros Hr. destruct (insert_sorted_kept now l ins) as ((K1 & K2) & K3). split.
  - apply insert_sorted_on. exact Hr.
  - apply map_pair; [exact K1|exact K3].
  - intros i n Hi.
    apply (walk_in now (fun l ins => fst (insert_sorted now l ins)) (fun s ins a b => set_elems (fun old => merge_copy old (slice ins a b)) s)) with (i := 0);
      [reflexivity| |exact Hi].
    intros s r ins0. cbn [insert_sorted]. destruct (filter_idx s ins0) as (a & b). destruct (Nat.eqb a b).
    + destruct (insert_sorted now r ins0). reflexivity.
    + destruct (insert_sorted now r (skipn b ins0)). reflexivity.
  - exact K2.
Qed.
Lemma insert_sorted_part now room : forall l k ins i o n x, ranked ins ->
  nth_error l i = Some o -> nth_error (fst (insert_sorted now l ins)) i = Some n ->
  nth_error (insert_sl room k l ins) i = Some x -> part_insert room (k + i) (sg_elems o) (sg_elems n) (seen (length (sg_elems o)) x).
Proof.
  induction l as [|s l IH]; intros k ins i o n x Hr; [destruct i; discriminate|]. cbn [insert_sorted insert_sl].
  destruct (filter_idx s ins) as [a b]. destruct (Nat.eqb a b).
  - specialize (IH (S k) ins). destruct (insert_sorted now l ins) as [r' ix]. destruct i as [|i]; cbn [nth_error fst]; intros E1 E2 E3.
    + inv E1. inv E2. inv E3. unfold seen, sl_of. cbn [sl_left sl_cells]. rewrite firstn_app_len. apply part_insert_same.
    + replace (k + S i) with (S k + i) by lia. eapply IH; eauto.
  - specialize (IH (S k) (skipn b ins)). destruct (insert_sorted now l (skipn b ins)) as [r' ix]. destruct i as [|i]; cbn [nth_error fst]; intros E1 E2 E3.
    + inv E1. inv E2. inv E3. rewrite Nat.add_0_r. unfold part_insert. cbn [touch set_elems sg_elems]. apply merge_seen. apply ranked_slice. exact Hr.
    + replace (k + S i) with (S k + i) by lia. eapply IH; eauto. apply ranked_skipn. exact Hr.
Qed.
