(** Lemmas on Model/Alias.v: the calls of a list, against Model/List.v. *)
From Verif.Lib Require Import Prelude ListAux ListLemmas Perm.
From Verif.Model Require Import Element Elements Segment List Storage Fails Alias.
From Verif.Spec Require Import RankSpec.
From Verif.Proof Require Import ElementsP AliasP.
Open Scope nat_scope.

(** the slice of the call holds the elements of the segment *)
Definition on (s : seg) (x : sl) : Prop := fits x /\ cur x = sg_elems s.
Lemma on_repr s x : on s x -> exists b lf, x = mkSl (sg_elems s ++ b) (length (sg_elems s)) lf.
Proof. intros (H & E). destruct (fits_repr x H) as (a & b & lf & ->). rewrite cur_repr in E. subst a. eauto. Qed.
Lemma on_mk s b lf n : n = length (sg_elems s) -> on s (mkSl (sg_elems s ++ b) n lf).
Proof. intros H. split; [apply fits_mk, H|apply cur_mk, H]. Qed.
Lemma on_mk' s c b lf n : sg_elems s = c -> n = length c -> on s (mkSl (c ++ b) n lf).
Proof. intros <-. apply on_mk. Qed.
Lemma on_of s room : on s (sl_of room (sg_elems s)).
Proof. apply on_mk. reflexivity. Qed.
Lemma on_add g now e s x : on s x -> on (set_elems (fun l => res_or l (add_elem now e l)) s) (res_sl x (sl_add g now e x)).
Proof.
  intros H. destruct (on_repr _ _ H) as (b & lf & ->). rewrite sl_add_form.
  destruct (add_elem now e (sg_elems s)) as [[a' r]|] eqn:E; cbn [res_sl].
  - assert (L : length a' = length (sg_elems s) \/ length a' = S (length (sg_elems s))).
    { unfold add_elem in E. cbv zeta in E. destruct (find_idx_id _ _).
      - left. eapply update_elem_len. exact E.
      - right. pose proof (insert_elem_len (with_time now e) (sg_elems s)) as L. destruct (insert_elem _ _). inv E. exact L. }
    destruct (Nat.eqb_spec (length a') (length (sg_elems s))) as [El|El].
    + apply on_mk'; [cbn; rewrite E; reflexivity|congruence].
    + destruct L as [L|L]; [contradiction|]. destruct b; (apply on_mk'; [cbn; rewrite E; reflexivity|congruence]).
  - apply on_mk'; [cbn; rewrite E; reflexivity|reflexivity].
Qed.
Lemma on_update g now e s x : on s x ->
  on (set_elems (fun l => res_or l (update_elem now e l)) s) (res_sl x (sl_update g now e x)) /\
  List.is_ok (sl_update g now e x) = List.is_ok (update_elem now e (sg_elems s)).
Proof.
  intros H. destruct (on_repr _ _ H) as (b & lf & ->). rewrite sl_update_form.
  destruct (update_elem now e (sg_elems s)) as [[a' r]|] eqn:E; cbn [res_sl List.is_ok]; (split; [|reflexivity]).
  - apply on_mk'; [cbn; rewrite E; reflexivity|]. symmetry. eapply update_elem_len. exact E.
  - apply on_mk'; [cbn; rewrite E; reflexivity|reflexivity].
Qed.
Lemma on_delete id s x : on s x ->
  on (set_elems (fun l => match delete_elem id l with Ok l' => l' | NotFound => l end) s) (res_sl x (sl_delete id x)).
Proof.
  intros H. destruct (on_repr _ _ H) as (b & lf & ->). rewrite sl_delete_form.
  destruct (delete_elem id (sg_elems s)) as [a'|] eqn:E; cbn [res_sl]; (apply on_mk'; [cbn; rewrite E; reflexivity|reflexivity]).
Qed.

Lemma F2_upd {A B} (R : A -> B -> Prop) f g i : (forall a b, R a b -> R (f a) (g b)) -> forall l k,
  Forall2 R l k -> Forall2 R (upd_nth i f l) (upd_nth i g k).
Proof. intros H l k F. revert i. induction F as [|a b l k Hab F IH]; intros [|i]; cbn; constructor; auto. Qed.
Lemma F2_nth {A B} (R : A -> B -> Prop) l k i : Forall2 R l k ->
  match nth_error l i, nth_error k i with Some a, Some b => R a b | None, None => True | _, _ => False end.
Proof. intros F. revert i. induction F as [|a b l k Hab F IH]; intros [|i]; cbn; auto. apply IH. Qed.
Lemma F2_upd_at {A B} (R : A -> B -> Prop) f g i : forall l k,
  Forall2 R l k -> (forall a b, nth_error l i = Some a -> nth_error k i = Some b -> R a b -> R (f a) (g b)) ->
  Forall2 R (upd_nth i f l) (upd_nth i g k).
Proof. intros l k F. revert i. induction F as [|a b l k Hab F IH]; intros [|i] H; cbn; constructor; auto. Qed.

Definition sim (ids : list N) (w : list seg * list seg) (v : list sl * list sl) : Prop :=
  Forall2 on (fst w) (fst v) /\ Forall2 on (snd w) (snd v) /\ map sg_id (fst w) = ids.
Lemma ids_upd i f (l : list seg) : (forall s, sg_id (f s) = sg_id s) -> map sg_id (upd_nth i f l) = map sg_id l.
Proof. intros H. revert i. induction l as [|s l IH]; intros [|i]; cbn; f_equal; auto. Qed.
Lemma step_sim g clk clki idxm exi eidx ids sidx w v e : sim ids w v ->
  sim ids (update_step clk clki idxm exi eidx sidx w e) (update_step_sl g clk clki idxm exi eidx ids sidx v e).
Proof.
  destruct w as [ss is], v as [xs ys]. intros (H1 & H2 & H3). cbn [fst snd] in *. unfold update_step, update_step_sl.
  subst ids. rewrite nth_error_map. destruct (nth_error ss sidx) as [dst|] eqn:Ed; cbn [option_map]; [|split; [exact H1|split; [exact H2|reflexivity]]].
  destruct (assoc (e_id e) exi) as [ex|].
  2: { split; [|split]; cbn [fst snd]; [apply F2_upd; [intros; apply on_add; assumption|exact H1]|apply F2_upd; [intros; apply on_add; assumption|exact H2]|].
       rewrite ids_upd by reflexivity. reflexivity. }
  destruct (N.eqb (e_tie ex) (sg_id dst)).
  { split; [|split]; cbn [fst snd]; [apply F2_upd; [intros; apply on_update; assumption|exact H1]|exact H2|].
    rewrite ids_upd by reflexivity. reflexivity. }
  pose proof (F2_nth _ _ _ (idx_get eidx (e_id e)) H2) as Hn.
  destruct (nth_error is (idx_get eidx (e_id e))) as [iseg|] eqn:Ei, (nth_error ys (idx_get eidx (e_id e))) as [y|] eqn:Ey; try contradiction.
  2: { split; [|split]; cbn [fst snd]; [apply F2_upd; [intros; apply on_add; assumption|exact H1]|exact H2|].
       rewrite ids_upd by reflexivity. reflexivity. }
  destruct (on_update g (clki (e_id e)) (as_index e (sg_id dst)) _ _ Hn) as [Hu Hk]. rewrite <- Hk. clear Hk.
  destruct (sl_update g (clki (e_id e)) (as_index e (sg_id dst)) y) as [y'|] eqn:Es; cbn [List.is_ok].
  - split; [|split]; cbn [fst snd].
    + apply F2_upd; [intros; apply on_delete; assumption|]. apply F2_upd; [intros; apply on_add; assumption|exact H1].
    + apply F2_upd_at; [exact H2|]. intros a b Ha Hb _. rewrite Ei in Ha. inv Ha. cbn [res_sl] in Hu. exact Hu.
    + rewrite !ids_upd by reflexivity. reflexivity.
  - split; [|split]; cbn [fst snd]; [apply F2_upd; [intros; apply on_add; assumption|exact H1]|exact H2|].
    rewrite ids_upd by reflexivity. reflexivity.
Qed.
Lemma loop_sim g clk clki idxm exi eidx ids : forall groups w v, sim ids w v ->
  sim ids (update_loop clk clki idxm exi eidx groups w) (update_loop_sl g clk clki idxm exi eidx ids groups v).
Proof.
  unfold update_loop, update_loop_sl. induction groups as [|[i el] groups IH]; intros w v H; cbn [fold_left]; [exact H|].
  apply IH. cbn [fst snd]. revert w v H. induction el as [|e el IHe]; intros w v H; cbn [fold_left]; [exact H|].
  apply IHe. apply step_sim. exact H.
Qed.
Lemma F2_mapi {A B} (R : A -> B -> Prop) (f : nat -> A -> B) : (forall i a, R a (f i a)) -> forall l, Forall2 R l (mapi f l).
Proof. intros H l. unfold mapi. generalize 0. induction l as [|a l IH]; intros k; cbn; constructor; auto. Qed.
Lemma sls_on room l : Forall2 on l (sls_of room l).
Proof. apply F2_mapi. intros. apply on_of. Qed.

(** the in-place walk over sorted elements *)
Lemma delete_sorted_on now room : forall l i ins,
  Forall2 on (delete_sorted now l ins) (delete_sorted_sl room i l ins).
Proof.
  induction l as [|s l IH]; intros i ins; cbn; [constructor|]. destruct (filter_idx s ins) as [a b].
  destruct (Nat.eqb a b); constructor; auto; [apply on_of|].
  unfold sl_of. rewrite sl_filter_form. apply on_mk'; reflexivity.
Qed.
Lemma delete_idx_on now sc room s ids :
  Forall2 on (ss_segs (fst (delete_elements_idx now sc s ids))) (delete_idx_sl room (reindex s) ids).
Proof.
  unfold delete_elements_idx, delete_idx_sl. cbv zeta. cbn [fst set_segs ss_segs]. unfold mapi. generalize 0.
  induction (ss_segs (reindex s)) as [|x l IH]; intros k; cbn; constructor; auto.
  destruct (ids_for (ss_idx (reindex s)) k ids) as [|d ds]; [apply on_of|].
  unfold sl_of. rewrite sl_filter_form. apply on_mk'; reflexivity.
Qed.
Lemma merge_on now ins s room : ranked ins -> on (touch now (set_elems (fun old => merge_copy old ins) s)) (sl_merge ins (sl_of room (sg_elems s))).
Proof.
  intros Hr. unfold sl_of. rewrite sl_merge_form by exact Hr. destruct ins as [|x r].
  - apply on_mk'; cbn; rewrite ?merge_copy_nil_r; reflexivity.
  - destruct (_ || _ || _).
    + rewrite <- (app_nil_r (merge_copy (sg_elems s) (x :: r))) at 1. apply on_mk'; reflexivity.
    + apply on_mk'; reflexivity.
Qed.
Lemma ranked_skipn l n : ranked l -> ranked (skipn n l).
Proof. revert n. induction l as [|x l IH]; intros [|n] H; cbn; auto. inv H. apply IH. assumption. Qed.
Lemma ranked_firstn l n : ranked l -> ranked (firstn n l).
Proof.
  revert n. induction l as [|x l IH]; intros [|n] H; cbn; try constructor; inv H; [apply IH; assumption|].
  rewrite Forall_forall in *. intros y Hy. apply H3. eapply In_firstn; eauto.
Qed.
Lemma ranked_slice l a b : ranked l -> ranked (slice l a b).
Proof. intros H. apply ranked_firstn, ranked_skipn, H. Qed.
Lemma insert_sorted_on now room : forall l i ins, ranked ins ->
  Forall2 on (fst (insert_sorted now l ins)) (insert_sl room i l ins).
Proof.
  induction l as [|s l IH]; intros i ins Hr; cbn; [constructor|]. destruct (filter_idx s ins) as [a b].
  destruct (Nat.eqb a b).
  - specialize (IH (S i) ins Hr). destruct (insert_sorted now l ins). cbn. constructor; [apply on_of|exact IH].
  - specialize (IH (S i) (skipn b ins) (ranked_skipn _ _ Hr)). destruct (insert_sorted now l (skipn b ins)). cbn.
    constructor; [apply merge_on, ranked_slice, Hr|exact IH].
Qed.
