(** Lemmas on Model/Alias.v: updates. *)
From Coq Require Import Strings.String.
From Verif.Lib Require Import Prelude ListAux ListLemmas Perm.
From Verif.Model Require Import Element Elements Segment List Storage Fails Alias.
From Verif.Spec Require Import RankSpec QuerySpec HistorySpec AnswerSpec AliasSpec.
From Verif.Proof Require Import ElementP ElementsP SegP InvDef ChangeP UpdateP UpdateInv DeleteP InsertP HistoryP StoreOps AliasP AliasP2 AliasP3.
Open Scope nat_scope.

(** everything that the slices of a segment can show is from [P] *)
Record holds (P : element -> Prop) (n : nat) (x : sl) : Prop := {
  ho_fits : fits x;
  ho_len : n <= length (arr x);
  ho_arr : Forall P (firstn n (arr x));
  ho_cur : Forall P (cur x)
}.
Lemma holds_mk (P : element -> Prop) n a b lf : n <= length (match lf with Some l => l | None => a ++ b end) ->
  Forall P (firstn n (match lf with Some l => l | None => a ++ b end)) -> Forall P a -> holds P n (mkSl (a ++ b) (length a) lf).
Proof. intros H1 H2 H3. split; [apply fits_mk; reflexivity|exact H1|exact H2|rewrite cur_repr; exact H3]. Qed.
Lemma Forall_firstn {A} (P : A -> Prop) n l : Forall P l -> Forall P (firstn n l).
Proof. rewrite !Forall_forall. intros H x Hx. apply H. eapply In_firstn; eauto. Qed.
Lemma over (P : element -> Prop) n (a c : elements) : length a <= length c -> Forall P a -> Forall P (firstn n c) -> Forall P (firstn n (a ++ skipn (length a) c)).
Proof.
  intros L Ha Hc. rewrite firstn_app. apply Forall_app. split; [apply Forall_firstn; exact Ha|].
  destruct (Nat.le_gt_cases n (length a)); [replace (n - length a) with 0 by lia; constructor|].
  rewrite Forall_forall in *. intros x Hx. apply Hc.
  rewrite <- (firstn_skipn (length a) c), firstn_app. apply in_or_app. right. rewrite firstn_length. replace (Nat.min (length a) (length c)) with (length a) by lia. exact Hx.
Qed.
Lemma holds_over (P : element -> Prop) n a a' b lf : length a' <= length (a ++ b) -> holds P n (mkSl (a ++ b) (length a) lf) -> Forall P a' ->
  holds P n (mkSl (a' ++ skipn (length a') (a ++ b)) (length a') lf).
Proof.
  intros L [_ H2 H3 _] Ha. unfold arr in *. cbn [sl_left sl_cells] in *. apply holds_mk; [| |exact Ha]; destruct lf; auto.
  - rewrite app_length, skipn_length. lia.
  - apply over; auto.
Qed.
Lemma insert_elem_all (P : element -> Prop) x : P x -> forall a, Forall P a -> Forall P (fst (insert_elem x a)).
Proof.
  intros Hx. induction a as [|y a IH]; intros H; cbn; [auto|]. inv H. destruct (above y x); cbn; auto.
  destruct (insert_elem x a) as [r i]. cbn in *. auto.
Qed.
Lemma delete_elem_all (P : element -> Prop) id : forall a a', delete_elem id a = Ok a' -> Forall P a -> Forall P a'.
Proof.
  induction a as [|y a IH]; cbn; intros a' E H; [discriminate|]. inv H. destruct (N.eqb _ _); [inv E; assumption|].
  destruct (delete_elem id a); [|discriminate]. inv E. constructor; auto.
Qed.
Lemma holds_repr (P : element -> Prop) n x : holds P n x -> exists a b lf, x = mkSl (a ++ b) (length a) lf /\ Forall P a.
Proof. intros [H _ _ H4]. destruct (fits_repr x H) as (a & b & lf & ->). rewrite cur_repr in H4. eauto 6. Qed.
Lemma holds_delete (P : element -> Prop) n id x : holds P n x -> holds P n (res_sl x (sl_delete id x)).
Proof.
  intros H. destruct (holds_repr _ _ _ H) as (a & b & lf & -> & Ha). rewrite sl_delete_form.
  destruct (delete_elem id a) as [a'|] eqn:E; cbn [res_sl]; [|exact H]. apply holds_over; auto; [|eapply delete_elem_all; eauto].
  apply delete_elem_len in E. rewrite app_length. lia.
Qed.
Lemma holds_insert (P : element -> Prop) n g e x : P e -> holds P n x -> holds P n (sl_insert g e x).
Proof.
  intros He H. destruct (holds_repr _ _ _ H) as (a & b & lf & -> & Ha). rewrite sl_insert_form.
  pose proof (insert_elem_len e a) as L. pose proof (insert_elem_all P e He a Ha) as Hi.
  destruct b as [|z b'].
  - replace (S (length a)) with (length (fst (insert_elem e a))) by exact L. destruct H as [_ H2 H3 _]. unfold arr in *. cbn [sl_left sl_cells] in *.
    apply holds_mk; [| |exact Hi]; (destruct lf; [assumption|]); rewrite app_nil_r in *; assumption.
  - pose proof (holds_over P n a (fst (insert_elem e a)) (z :: b') lf ltac:(rewrite L, app_length; cbn; lia) H Hi) as G.
    rewrite L in G. replace (skipn (S (length a)) (a ++ z :: b')) with b' in G; [exact G|].
    rewrite skipn_app, skipn_all2 by lia. replace (S (length a) - length a) with 1 by lia. reflexivity.
Qed.
Lemma holds_update (P : element -> Prop) n g now e x : P (with_time now e) -> holds P n x -> holds P n (res_sl x (sl_update g now e x)).
Proof.
  intros He H. unfold sl_update. cbv zeta. pose proof (holds_delete P n (e_id (with_time now e)) x H) as G.
  destruct (sl_delete _ x) as [x'|]; cbn [res_sl] in *; [|exact H]. apply holds_insert; assumption.
Qed.
Lemma holds_add (P : element -> Prop) n g now e x : P (with_time now e) -> holds P n x -> holds P n (res_sl x (sl_add g now e x)).
Proof.
  intros He H. unfold sl_add. cbv zeta. destruct (find_idx_id _ _).
  - apply holds_update; [rewrite with_time_time; exact He|exact H].
  - cbn [res_sl]. apply holds_insert; assumption.
Qed.
Lemma holds_of (Q : element -> Prop) e room : holds (fun x => In x e \/ Q x) (length e) (sl_of room e).
Proof.
  unfold sl_of. apply holds_mk.
  - rewrite app_length. lia.
  - rewrite firstn_app_len. apply Forall_forall. auto.
  - apply Forall_forall. auto.
Qed.

Definition holdsP (Q : element -> Prop) (o : seg) (x : sl) : Prop := holds (fun y => In y (sg_elems o) \/ Q y) (length (sg_elems o)) x.
Definition both_hold (Q1 Q2 : element -> Prop) (os is : list seg) (v : list sl * list sl) : Prop :=
  Forall2 (holdsP Q1) os (fst v) /\ Forall2 (holdsP Q2) is (snd v).
Lemma F2_right {A B} (R : A -> B -> Prop) g i : (forall a b, R a b -> R a (g b)) -> forall l k, Forall2 R l k -> Forall2 R l (upd_nth i g k).
Proof. intros H l k F. revert i. induction F as [|a b l k Hab F IH]; intros [|i]; cbn; constructor; auto. Qed.
Lemma F2_right_at {A B} (R : A -> B -> Prop) g i y : forall l k, nth_error k i = Some y -> (forall a, R a y -> R a (g y)) -> Forall2 R l k -> Forall2 R l (upd_nth i g k).
Proof. intros l k E H F. revert i E. induction F as [|a b l k Hab F IH]; intros [|i] E; cbn in *; try discriminate; constructor; auto. inv E. auto. Qed.
Lemma step_holds (Q1 Q2 : element -> Prop) os is g clk clki idxm exi eidx ids sidx v e :
  Q1 (with_time (clk (e_id e)) e) -> (forall d, Q2 (with_time (clki (e_id e)) (as_index e d))) ->
  both_hold Q1 Q2 os is v -> both_hold Q1 Q2 os is (update_step_sl g clk clki idxm exi eidx ids sidx v e).
Proof.
  intros HQ1 HQ2. destruct v as [xs ys]. intros (H1 & H2). cbn [fst snd] in *. unfold update_step_sl.
  destruct (nth_error ids sidx) as [dst|]; [|split; assumption].
  assert (HA : Forall2 (holdsP Q1) os (upd_nth sidx (fun x => res_sl x (sl_add g (clk (e_id e)) e x)) xs)).
  { apply F2_right; [intros a b; apply holds_add; auto|exact H1]. }
  destruct (assoc (e_id e) exi) as [ex|].
  2: { split; cbn [fst snd]; [exact HA|apply F2_right; [intros a b; apply holds_add; auto|exact H2]]. }
  destruct (N.eqb (e_tie ex) dst).
  { split; cbn [fst snd]; [apply F2_right; [intros a b; apply holds_update; auto|exact H1]|exact H2]. }
  destruct (nth_error ys (idx_get eidx (e_id e))) as [y|] eqn:Ey; [|split; assumption].
  destruct (sl_update g (clki (e_id e)) (as_index e dst) y) as [y'|] eqn:Es; [|split; assumption].
  split; cbn [fst snd].
  - apply F2_right; [intros a b; apply holds_delete|exact HA].
  - eapply F2_right_at; [exact Ey| |exact H2]. intros a Ha. pose proof (holds_update _ _ g (clki (e_id e)) (as_index e dst) y (or_intror (HQ2 dst)) Ha) as G.
    rewrite Es in G. exact G.
Qed.
Lemma loop_holds (Q1 Q2 : element -> Prop) os is g clk clki idxm exi eidx ids : forall groups v,
  (forall p e, In p groups -> In e (snd p) -> Q1 (with_time (clk (e_id e)) e) /\ forall d, Q2 (with_time (clki (e_id e)) (as_index e d))) ->
  both_hold Q1 Q2 os is v -> both_hold Q1 Q2 os is (update_loop_sl g clk clki idxm exi eidx ids groups v).
Proof.
  unfold update_loop_sl. induction groups as [|[i el] groups IH]; intros v HQ H; cbn [fold_left]; [exact H|].
  apply IH; [intros p e Hp; apply HQ; right; exact Hp|]. cbn [fst snd].
  assert (HQ' : forall e, In e el -> Q1 (with_time (clk (e_id e)) e) /\ forall d, Q2 (with_time (clki (e_id e)) (as_index e d))).
  { intros e He. apply (HQ (i, el)); [left; reflexivity|exact He]. }
  clear HQ IH. revert v H. induction el as [|e el IHe]; intros v H; cbn [fold_left]; [exact H|].
  apply IHe; [intros e' He; apply HQ'; right; exact He|]. apply step_holds; [apply HQ'; left; reflexivity|apply HQ'; left; reflexivity|exact H].
Qed.
Lemma holdsP_part (Q : element -> Prop) i o new x : holdsP Q o x -> part_update Q i (sg_elems o) new (seen (length (sg_elems o)) x).
Proof.
  intros [_ H2 H3 _]. unfold part_update. rewrite seen_arr. split; [rewrite firstn_length; lia|].
  rewrite Forall_forall in H3. exact H3.
Qed.
Lemma part_update_same Q i e : part_update Q i e e e. Proof. split; auto. Qed.

(** the segments of the call *)
Lemma step_bare clk clki idxm exi eidx sidx w e : map bare (fst (update_step clk clki idxm exi eidx sidx w e)) = map bare (fst w) /\
  map bare (snd (update_step clk clki idxm exi eidx sidx w e)) = map bare (snd w).
Proof.
  destruct w as [ss is]. unfold update_step. destruct (nth_error ss sidx); [|split; reflexivity]. destruct (assoc _ exi).
  - destruct (N.eqb _ _); cbn [fst snd]; [rewrite ?upd_nth_map by reflexivity; split; reflexivity|].
    destruct (nth_error is _); [destruct (List.is_ok _)|]; cbn [fst snd]; rewrite ?upd_nth_map by reflexivity; split; reflexivity.
  - cbn [fst snd]. rewrite ?upd_nth_map by reflexivity. split; reflexivity.
Qed.
Lemma loop_bare clk clki idxm exi eidx : forall groups w, map bare (fst (update_loop clk clki idxm exi eidx groups w)) = map bare (fst w) /\
  map bare (snd (update_loop clk clki idxm exi eidx groups w)) = map bare (snd w).
Proof.
  unfold update_loop. induction groups as [|[i el] groups IH]; intros w; cbn [fold_left]; [split; reflexivity|].
  cbn [fst snd] in *. destruct (IH (fold_left (update_step clk clki idxm exi eidx i) el w)) as [-> ->].
  revert w. induction el as [|e el IHe]; intros w; cbn [fold_left]; [split; reflexivity|].
  destruct (IHe (update_step clk clki idxm exi eidx i w e)) as [-> ->]. apply step_bare.
Qed.
