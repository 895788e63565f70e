(** Calls that take segment locks one at a time, or under the update lock, never
    block each other forever. *)
From Verif.Lib Require Import Prelude ListAux ListLemmas.
From Verif.Model Require Import Element Elements Segment List Locks.
From Verif.Spec Require Import LockSpec.
From Verif.Proof Require Import ChangeP LocksP SerialP.
Open Scope nat_scope.

(** ** An operation under the read lock keeps the number of segments *)
Lemma reindex_segs s : ss_segs (reindex s) = ss_segs s.
Proof. unfold reindex. destruct (_ =? _); reflexivity. Qed.
Lemma mapi_from_len {A B} (f : nat -> A -> B) l : forall k, length (mapi_from k f l) = length l.
Proof. induction l; intros k; cbn; auto. Qed.
Lemma insert_sorted_len now : forall l ins, length (fst (insert_sorted now l ins)) = length l.
Proof.
  induction l as [|s r IH]; intros ins; cbn; [reflexivity|].
  destruct (filter_idx s ins) as (a & b). destruct (Nat.eqb a b).
  - specialize (IH ins). destruct (insert_sorted now r ins). cbn in *. lia.
  - specialize (IH (skipn b ins)). destruct (insert_sorted now r (skipn b ins)). cbn in *. lia.
Qed.
Lemma delete_sorted_len now : forall l ins, length (delete_sorted now l ins) = length l.
Proof.
  induction l as [|s r IH]; intros ins; cbn; [reflexivity|].
  destruct (filter_idx s ins) as (a & b). destruct (Nat.eqb a b); cbn; rewrite IH; reflexivity.
Qed.
Lemma update_step_len clk clki idxm exi eidx sidx w e :
  length (fst (update_step clk clki idxm exi eidx sidx w e)) = length (fst w) /\
  length (snd (update_step clk clki idxm exi eidx sidx w e)) = length (snd w).
Proof.
  destruct w as (ss & is). unfold update_step. destruct (nth_error ss sidx); [|auto].
  destruct (assoc (e_id e) exi) as [ex|]; cbn; rewrite ?upd_nth_length; [|auto].
  destruct (N.eqb (e_tie ex) (sg_id s)); cbn; rewrite ?upd_nth_length; [auto|].
  destruct (nth_error is (idx_get eidx (e_id e))) as [iseg|]; cbn; rewrite ?upd_nth_length; [|auto].
  destruct (is_ok (update_elem (clki (e_id e)) (as_index e (sg_id s)) (sg_elems iseg))); cbn; rewrite ?upd_nth_length; auto.
Qed.
Lemma update_group_len clk clki idxm exi eidx sidx es : forall w,
  length (fst (fold_left (update_step clk clki idxm exi eidx sidx) es w)) = length (fst w) /\
  length (snd (fold_left (update_step clk clki idxm exi eidx sidx) es w)) = length (snd w).
Proof.
  induction es as [|e es IH]; intros w; cbn; [auto|].
  destruct (IH (update_step clk clki idxm exi eidx sidx w e)) as (-> & ->). apply update_step_len.
Qed.
Lemma update_loop_len clk clki idxm exi eidx gs : forall w,
  length (fst (update_loop clk clki idxm exi eidx gs w)) = length (fst w) /\
  length (snd (update_loop clk clki idxm exi eidx gs w)) = length (snd w).
Proof.
  unfold update_loop. induction gs as [|g gs IH]; intros w; [auto|]. cbn [fold_left].
  match goal with |- context [fold_left _ gs ?x] => destruct (IH x) as (A & B) end.
  destruct (update_group_len clk clki idxm exi eidx (fst g) (snd g) w) as (C & D).
  split; etransitivity; eassumption.
Qed.
Lemma segs_insert_len now sc s e : length (ss_segs (fst (segs_insert now sc s e))) = length (ss_segs s).
Proof.
  unfold segs_insert. pose proof (insert_sorted_len now (ss_segs s) (sort_elems e)) as A.
  destruct (insert_sorted now (ss_segs s) (sort_elems e)) as (l' & ix). exact A.
Qed.
Lemma insert_one_len now sc l e b : length (ss_segs (side b (insert_one now sc l e))) = length (ss_segs (side b l)).
Proof.
  unfold insert_one. pose proof (segs_insert_len now sc (l_scores l) (sort_elems e)) as A.
  destruct (segs_insert now sc (l_scores l) (sort_elems e)) as (s' & ix).
  pose proof (segs_insert_len now [] (l_index l) (sort_elems ix)) as B.
  destruct (segs_insert now [] (l_index l) (sort_elems ix)) as (i' & iy). destruct b; assumption.
Qed.
Lemma insert_loop_len now sch limit : forall fuel e l l' b, insert_loop fuel limit now sch e l = Done l' ->
  length (ss_segs (side b l')) = length (ss_segs (side b l)).
Proof.
  induction fuel as [|f IH]; intros e l l' b E; cbn [insert_loop] in E; destruct (Nat.ltb limit (length e)); try discriminate E.
  - assert (l' = insert_one now (sch (length e)) l e) as -> by congruence. apply insert_one_len.
  - rewrite (IH _ _ _ b E). apply insert_one_len.
  - assert (l' = insert_one now (sch (length e)) l e) as -> by congruence. apply insert_one_len.
Qed.
Lemma shared_len o l l' b : shared o = true -> step l o = Done l' ->
  length (ss_segs (side b l')) = length (ss_segs (side b l)).
Proof.
  destruct o as [clk clki now sc e|now sch e|now sc1 sc2 ids| | | | |]; try discriminate; intros _; cbn [step].
  - intros E. injection E as <-. unfold update_elements, update_core.
    set (W := update_loop _ _ _ _ _ _ _).
    assert (HW : length (fst W) = length (ss_segs (l_scores l)) /\ length (snd W) = length (ss_segs (l_index l))).
    { unfold W. destruct (update_loop_len clk clki (ss_idx (reindex (l_scores l)))
        (existing_idx (ss_segs (l_index l)) (index_groups (ss_segs (l_index l)) (sort_ids_desc (map e_id (sort_elems e)))))
        (elements_idx (index_groups (ss_segs (l_index l)) (sort_ids_desc (map e_id (sort_elems e)))))
        (permute sc (split_elements_idx (ss_segs (reindex (l_scores l))) (sort_elems e)))
        (ss_segs (reindex (l_scores l)), ss_segs (l_index l))) as (-> & ->). cbn. rewrite reindex_segs. auto. }
    destruct W as (ss & is). cbn in HW. destruct HW as (H1 & H2).
    destruct b; cbn; unfold touch_at, mapi; rewrite mapi_from_len; assumption.
  - apply insert_loop_len.
  - intros E. injection E as <-. unfold delete_elements, delete_elements_idx.
    destruct (fold_left _ _ _) as [|d ds]; destruct b; cbn; unfold mapi; rewrite ?mapi_from_len, ?delete_sorted_len, ?reindex_segs; reflexivity.
Qed.

(** ** There is always a way to do the work *)
Definition all_cells (l : lst) : list lock :=
  LStats :: map (LSeg false) (seq 0 (length (ss_segs (l_scores l)))) ++ map (LSeg true) (seq 0 (length (ss_segs (l_index l)))).
Definition one_by_one (ks : list lock) : list act := flat_map (fun k => [Acq k true; Put k; Rel k]) ks.
Lemma one_by_one_ok ks : (forall k, In k ks -> is_cell k = true) -> plan_ok [] [] (one_by_one ks) = true.
Proof.
  induction ks as [|k ks IH]; intros H; [reflexivity|]. cbn. rewrite (H k (or_introl eq_refl)), lock_eqb_refl. cbn.
  apply IH. intros x Hx. apply H. right. exact Hx.
Qed.
Lemma one_by_one_puts ks : puts (one_by_one ks) = ks.
Proof. induction ks as [|k ks IH]; [reflexivity|]. cbn. f_equal. exact IH. Qed.
Lemma all_cells_cell l k : In k (all_cells l) -> is_cell k = true.
Proof. intros [<-|H]; [reflexivity|]. apply in_app_or in H as [H|H]; apply in_map_iff in H as (i & <- & _); reflexivity. Qed.

Lemma put_all_seg ks : forall src dst b i, (forall k, In k ks -> is_cell k = true) ->
  (forall b, length (ss_segs (side b dst)) = length (ss_segs (side b src))) ->
  In (LSeg b i) ks \/ seg_of b i dst = seg_of b i src -> seg_of b i (put_all ks src dst) = seg_of b i src.
Proof.
  induction ks as [|k ks IH]; intros src dst b i Hc L H; cbn; [destruct H as [[]|H]; exact H|]. fold (put_all ks src (put k src dst)).
  assert (Hk : is_cell k = true) by (apply Hc; left; reflexivity).
  apply IH; [intros x Hx; apply Hc; right; exact Hx|intros b'; rewrite put_len by exact Hk; apply L|].
  destruct (lock_eq_dec k (LSeg b i)) as [->|N]; [right; apply put_same, L|].
  destruct H as [[C|H]|H]; [congruence|auto|]. right. rewrite put_other by assumption. exact H.
Qed.
Lemma put_all_framed ks : forall src dst, (forall k, In k ks -> is_cell k = true) ->
  In LStats ks \/ framed src dst -> framed src (put_all ks src dst).
Proof.
  induction ks as [|k ks IH]; intros src dst Hc H; cbn; [destruct H as [[]|H]; exact H|]. fold (put_all ks src (put k src dst)).
  assert (Hk : is_cell k = true) by (apply Hc; left; reflexivity).
  apply IH; [intros x Hx; apply Hc; right; exact Hx|].
  destruct k as [| | |b i|]; try discriminate Hk; [|right; apply framed_put].
  destruct H as [[C|H]|H]; [discriminate|auto|]. right. apply framed_put_seg, H.
Qed.
Lemma put_everything cur new : (forall b, length (ss_segs (side b cur)) = length (ss_segs (side b new))) ->
  put_all (all_cells cur) new cur = new.
Proof.
  intros L. apply cells_eq.
  - apply put_all_framed; [apply all_cells_cell|]. left. left. reflexivity.
  - intros b i. apply put_all_seg; [apply all_cells_cell|exact L|].
    destruct (Nat.lt_ge_cases i (length (ss_segs (side b cur)))) as [Hi|Hi].
    + left. right. apply in_or_app. destruct b; [right|left]; apply in_map_iff; exists i; (split; [reflexivity|apply in_seq; cbn in *; lia]).
    + right. assert (A : seg_of b i cur = None) by (apply nth_error_None; exact Hi).
      assert (B : seg_of b i new = None) by (apply nth_error_None; rewrite <- L; exact Hi). congruence.
Qed.
Lemma plan_exists o cur new : step cur o = Done new -> exists p, plan_for o cur new p = true.
Proof.
  intros E. unfold plan_for. destruct (shared o) eqn:Eo; [|exists [Dirty LSegs; Put LSegs]; reflexivity].
  exists (one_by_one (all_cells cur)). rewrite one_by_one_ok by apply all_cells_cell.
  rewrite one_by_one_puts. destruct (lst_eq_dec _ _) as [|N]; [reflexivity|]. destruct N. apply put_everything.
  intros b. symmetry. apply (shared_len o); assumption.
Qed.

(** ** Lock order *)
Definition rank0 (k : lock) : nat :=
  match k with LUpdate => 0 | LLoading => 1 | LSegs => 2 | LSeg _ _ => 3 | LStats => 4 end.
Fixpoint ordered (h : list (lock * bool)) (p : list act) : Prop :=
  match p with
  | [] => True
  | Acq k w :: r => (forall k', In k' (map fst h) -> rank0 k' < rank0 k) /\ ordered ((k, w) :: h) r
  | Rel k :: r => match drop_held k h with Some h' => ordered h' r | None => False end
  | Get _ _ :: r | Work _ :: r => ordered h r
  | Dirty _ :: _ | Put _ :: _ => False
  end.
Lemma ordered_reads ks : forall h r, (forall k, In k (map fst h) -> rank0 k < 3) -> ordered h r ->
  ordered h (flat_map read_seg ks ++ r).
Proof.
  induction ks as [|[b i] ks IH]; intros h r Hl Hs; [exact Hs|].
  cbn [flat_map read_seg fst snd app ordered drop_held]. rewrite lock_eqb_refl. split; [exact Hl|]. apply IH; assumption.
Qed.
Ltac small_ranks := let k := fresh in let H := fresh in intros k H; cbn in H; repeat (destruct H as [<-|H]; [cbn; lia|]); destruct H.
Lemma ordered_call x : plain_call x -> ordered [] (prog_of x).
Proof.
  destruct x as [cold ks|cold ks i below above|cold i window|cold ks|cold o ks|o| |cold ks]; intros Hp; try destruct Hp; cbn [prog_of].
  - assert (G : ordered [(LSegs, false)] (read_stats ++ flat_map read_seg ks ++ unload false)).
    { cbn [read_stats app ordered drop_held]. cbn [lock_eqb lock_eq_dec fst]. split; [small_ranks|].
      apply ordered_reads; [small_ranks|]. exact I. }
    revert G. generalize (read_stats ++ flat_map read_seg ks ++ unload false). intros tl G.
    destruct cold; cbn [load app ordered drop_held]; cbn; repeat (split; [small_ranks|]); exact G.
  - assert (G : forall w, ordered [(LSegs, w); (LUpdate, true)] ([Work o] ++ flat_map read_seg ks ++ unload true)).
    { intros w. cbn [app ordered]. apply ordered_reads; [small_ranks|]. exact I. }
    revert G. generalize ([Work o] ++ flat_map read_seg ks ++ unload true). intros tl G.
    destruct cold, (shared o); cbn [load app ordered drop_held negb]; cbn; repeat (split; [small_ranks|]); apply G.
  - cbn [ordered]. repeat (split; [small_ranks|]). exact I.
  - cbn [ordered]. repeat (split; [small_ranks|]). exact I.
  - assert (G : ordered [(LSegs, false); (LUpdate, true)] (read_stats ++ flat_map read_seg ks ++ unload true)).
    { cbn [read_stats app ordered drop_held]. cbn [lock_eqb lock_eq_dec fst]. split; [small_ranks|].
      apply ordered_reads; [small_ranks|]. exact I. }
    revert G. generalize (read_stats ++ flat_map read_seg ks ++ unload true). intros tl G.
    destruct cold; cbn [load app ordered drop_held]; cbn; repeat (split; [small_ranks|]); exact G.
Qed.

Inductive tord (th : thread) : Prop :=
| T_idle : sane (t_held th) (t_prog th) -> ordered (t_held th) (t_prog th) -> tord th
| T_plan p hs d h r : t_prog th = p ++ r -> t_held th = wr hs ++ h -> plan_ok hs d p = true -> NoDup hs ->
    (forall k, In k hs -> is_cell k = true) -> In (LUpdate, true) h -> (forall k, In k (map fst h) -> is_cell k = false) ->
    sane h r -> ordered h r -> tord th
| T_rw r : (t_prog th = Dirty LSegs :: Put LSegs :: r \/ t_prog th = Put LSegs :: r) ->
    sane (t_held th) r -> ordered (t_held th) r -> tord th.

Lemma tord_idle_move c t th th' cur log : sane (t_held th) (t_prog th) -> ordered (t_held th) (t_prog th) ->
  tmove c t th th' cur log -> tord th'.
Proof.
  intros H O M.
  destruct M as [k r E Ea Ew Er|k r E Ea Ew Eq|k r E Ew Eq|k r h0 E Eh0|b i r E|o r new p E Es Epl|k r g E|k r E];
    rewrite E in H, O; cbn [sane ordered] in H, O.
  - destruct O as (_ & O). apply T_idle; assumption.
  - apply T_idle; cbn; rewrite E; assumption.
  - destruct O as (_ & O). apply T_idle; assumption.
  - rewrite Eh0 in H, O. apply T_idle; assumption.
  - destruct H as (_ & _ & H). apply T_idle; assumption.
  - destruct H as (A & B & H). unfold plan_for in Epl. destruct (shared o).
    + apply andb_true_iff in Epl as (Epl & _). destruct A as (A1 & A2).
      apply T_plan with (p := p) (hs := []) (d := []) (h := t_held th) (r := r); auto using NoDup_nil; intros k [].
    + destruct p as [|[| | | |[]|] [|[| | | | |[]] [|]]]; try discriminate Epl.
      apply T_rw with (r := r); auto.
  - destruct H.
  - destruct H.
Qed.
Lemma tord_move c t th th' cur log : tord th -> tmove c t th th' cur log -> tord th'.
Proof.
  intros [H O|p hs d h r Ep Eh Hok Nd Hc HU Hn H O|r Ep H O] M.
  - eapply tord_idle_move; eassumption.
  - destruct p as [|a p].
    + cbn in Hok. destruct hs; [|discriminate]. cbn in Ep, Eh. rewrite <- Ep, <- Eh in H, O. eapply tord_idle_move; eassumption.
    + cbn [app] in Ep.
      destruct M as [k r0 E Ea Ew Er|k r0 E Ea Ew Eq|k r0 E Ew Eq|k r0 h0 E Eh0|b i r0 E|o r0 new pl E Es Epl|k r0 g E|k r0 E];
        rewrite Ep in E; injection E as -> <-; cbn [plan_ok] in Hok; try discriminate Hok; rewrite ?andb_true_iff in Hok.
      * destruct Hok as (((Hk & Hm) & _) & Hok). apply negb_true_iff, mem_lock_not in Hm.
        apply T_plan with (p := p) (hs := k :: hs) (d := d) (h := h) (r := r); auto.
        -- cbn. rewrite Eh. reflexivity.
        -- constructor; assumption.
        -- intros x [<-|Hx]; auto.
      * apply T_plan with (p := Acq k true :: p) (hs := hs) (d := d) (h := h) (r := r); auto.
        cbn [plan_ok]. rewrite !andb_true_iff. exact Hok.
      * destruct Hok as ((Hk & Hm) & Hok). apply mem_lock_In in Hk. rewrite Eh in Eh0. apply drop_wr in Eh0; [|assumption|assumption].
        apply T_plan with (p := p) (hs := drop_lock k hs) (d := d) (h := h) (r := r); auto.
        -- apply drop_nodup, Nd.
        -- intros x Hx. apply drop_lock_In in Hx as (Hx & _). auto.
      * destruct Hok as (_ & Hok). apply T_plan with (p := p) (hs := hs) (d := k :: d) (h := h) (r := r); auto.
      * destruct Hok as (_ & Hok). apply T_plan with (p := p) (hs := hs) (d := drop_lock k d) (h := h) (r := r); auto.
  - destruct M as [k r0 E Ea Ew Er|k r0 E Ea Ew Eq|k r0 E Ew Eq|k r0 h0 E Eh0|b i r0 E|o r0 new pl E Es Epl|k r0 g E|k r0 E];
      destruct Ep as [Ep|Ep]; rewrite Ep in E; try discriminate E; injection E as <- <-.
    + apply T_rw with (r := r); auto.
    + apply T_idle; assumption.
Qed.

Definition oinv (c : conf) : Prop :=
  excl (c_threads c) /\ forall t th, nth_error (c_threads c) t = Some th -> tord th.
Lemma oinv_reach l xs c : Forall plain_call xs -> Forall (fun x => call_ok x = true) xs -> reaches l xs c -> oinv c.
Proof.
  intros HP HC (s & Hs). eapply (moves_ind oinv); [| |exact Hs].
  - split; [apply excl_start|]. intros t th Ht. apply start_held in Ht as (x & Hx & ->). apply nth_error_In in Hx.
    rewrite Forall_forall in HP, HC. apply T_idle; [apply sane_call, HC, Hx|apply ordered_call, HP, Hx].
  - intros c1 t g p c2 (HE & HT) Hm. apply move_inv in Hm as (th & th' & cur & log & Ht & M & ->). split; cbn.
    + eapply excl_move; eassumption.
    + intros u x Hx. apply (at_upd _ _ _ _ _ _ Ht) in Hx as [(-> & ->)|(_ & Hx)]; [eapply tord_move; eauto|eauto].
Qed.

(** the order in a given state: segments held under the update lock come first *)
Definition lrank (c : conf) (k : lock) : nat :=
  match k with
  | LUpdate => 0 | LLoading => 1 | LSegs => 2 | LStats => 5
  | LSeg _ _ => if existsb (fun th => negb (holds LUpdate true th =? 0) && negb (holds k true th =? 0)) (c_threads c) then 3 else 4
  end.
Lemma lrank_seg c b i : 3 <= lrank c (LSeg b i) <= 4.
Proof. cbn. destruct (existsb _ _); lia. Qed.
Lemma lrank_low c k : is_cell k = false -> lrank c k <= 2.
Proof. destruct k; cbn; try discriminate; lia. Qed.
Lemma lrank_cell c k : is_cell k = true -> 3 <= lrank c k.
Proof. destruct k as [| | |b i|]; try discriminate; intros _; [apply (lrank_seg c b i)|cbn; lia]. Qed.
Lemma lrank_rank0 c k k' : rank0 k < rank0 k' -> lrank c k < lrank c k'.
Proof.
  intros H. destruct k as [| | |b i|], k' as [| | |b' i'|]; cbn [rank0] in H; try lia;
    try (cbn; lia); try (pose proof (lrank_seg c b i)); try (pose proof (lrank_seg c b' i')); cbn [lrank] in *; lia.
Qed.

Lemma waits_rank c t th k k' : oinv c -> nth_error (c_threads c) t = Some th -> waits_for th = Some k' ->
  In k (map fst (t_held th)) -> lrank c k < lrank c k'.
Proof.
  intros (HE & HT) Ht Hw Hk. specialize (HT t th Ht). unfold waits_for in Hw.
  assert (Idle : forall h p, t_held th = h -> t_prog th = p -> ordered h p -> lrank c k < lrank c k').
  { intros h p Eh Ep O. rewrite Ep in Hw. destruct p as [|[k0 w|?|? ?|?|?|?] p]; try discriminate Hw. injection Hw as ->.
    cbn in O. destruct O as (O & _). apply lrank_rank0, O. rewrite <- Eh. exact Hk. }
  destruct HT as [H O|p hs d h r Ep Eh Hok Nd Hc HU Hn H O|r Ep H O].
  - eapply Idle; eauto.
  - destruct p as [|a p].
    + cbn in Hok. destruct hs; [|discriminate]. eapply Idle; [exact Eh|exact Ep|exact O].
    + rewrite Ep in Hw. cbn [app] in Hw. destruct a as [k0 w|?|? ?|?|?|?]; try discriminate Hw. injection Hw as ->.
      cbn [plan_ok] in Hok. destruct w; [|discriminate]. rewrite !andb_true_iff in Hok.
      destruct Hok as (((Hk' & Hm) & HS) & _). apply negb_true_iff, mem_lock_not in Hm, HS.
      rewrite Eh, map_app in Hk. apply in_app_or in Hk as [Hk|Hk].
      2: { specialize (Hn k Hk). apply lrank_low with (c := c) in Hn. apply lrank_cell with (c := c) in Hk'. lia. }
      unfold wr in Hk. rewrite map_map in Hk. cbn in Hk. rewrite map_id in Hk.
      assert (HkC := Hc k Hk). destruct k as [| | |b i|]; try discriminate HkC; [|contradiction].
      assert (R3 : lrank c (LSeg b i) = 3).
      { cbn. assert (X : existsb (fun th => negb (holds LUpdate true th =? 0) && negb (holds (LSeg b i) true th =? 0)) (c_threads c) = true).
        { apply existsb_exists. exists th. split; [eapply nth_error_In, Ht|]. rewrite !holds_cnt, Eh.
          apply andb_true_iff. split; apply negb_true_iff, Nat.eqb_neq, cnt_In, in_or_app; [right; exact HU|].
          left. unfold wr. apply in_map_iff. eauto. }
        rewrite X. reflexivity. }
      rewrite R3. destruct k' as [| | |b' i'|]; try discriminate Hk'; [|cbn; lia].
      cbn. destruct (existsb _ _) eqn:X; [|lia]. exfalso. apply existsb_exists in X as (y & Hy & Ey).
      apply andb_true_iff in Ey as (E1 & E2). apply negb_true_iff, Nat.eqb_neq in E1, E2. rewrite holds_cnt in E1, E2.
      apply cnt_In in E1, E2. apply In_nth_error in Hy as (u & Hu).
      destruct (Nat.eq_dec t u) as [<-|Nt].
      * assert (y = th) by congruence. subst y. rewrite Eh in E2. apply in_app_or in E2 as [E2|E2].
        -- unfold wr in E2. apply in_map_iff in E2 as (z & Ez & Hz). injection Ez as ->. auto.
        -- apply (in_map fst) in E2. cbn in E2. apply Hn in E2. discriminate.
      * apply (excl_two _ t u _ _ LUpdate true HE Nt Ht Hu); [|exact E1]. rewrite Eh. apply in_or_app. right. exact HU.
  - destruct Ep as [Ep|Ep]; rewrite Ep in Hw; discriminate.
Qed.

(** a thread has returned, waits for a lock, fails, or can go on *)
Lemma ready c t th : oinv c -> nth_error (c_threads c) t = Some th -> t_prog th <> [] ->
  can_move c \/ broken c \/ exists k, waits_for th = Some k.
Proof.
  intros (HE & HT) Ht Np. specialize (HT t th Ht).
  assert (Go : forall a r, t_prog th = a :: r -> (forall k w, a <> Acq k w) -> (forall k, a = Rel k -> In k (map fst (t_held th))) ->
    can_move c \/ broken c).
  { intros a r E Na Hr. destruct a as [k w|k|b i|o|k|k].
    - destruct (Na k w eq_refl).
    - destruct (drop_held_some k _ (Hr k eq_refl)) as (h' & Eh). left. exists t, (c_cur c), []. eexists. unfold move. rewrite Ht, E, Eh. reflexivity.
    - left. exists t, (c_cur c), []. eexists. unfold move. rewrite Ht, E. reflexivity.
    - destruct (step (c_cur c) o) as [new| | |] eqn:Es.
      + destruct (plan_exists o _ _ Es) as (p & Hp). left. exists t, (c_cur c), p. eexists. unfold move. rewrite Ht, E, Es, Hp. reflexivity.
      + right. exists t, th, o, r. split; [exact Ht|split; [exact E|congruence]].
      + right. exists t, th, o, r. split; [exact Ht|split; [exact E|congruence]].
      + right. exists t, th, o, r. split; [exact Ht|split; [exact E|congruence]].
    - left. exists t, (c_cur c), []. eexists. unfold move. rewrite Ht, E. reflexivity.
    - left. exists t, (c_cur c), []. eexists. unfold move. rewrite Ht, E. reflexivity. }
  destruct (t_prog th) as [|a r] eqn:Ep; [congruence|].
  destruct a as [k w|k|b i|o|k|k]; try (destruct (Go _ _ eq_refl); [discriminate|discriminate|auto|auto]).
  - right. right. exists k. unfold waits_for. rewrite Ep. reflexivity.
  - destruct (Go _ _ eq_refl) as [A|A]; [discriminate| |auto|auto]. intros k0 Ek. injection Ek as <-.
    assert (I1 : forall h, sane h (Rel k :: r) -> In k (map fst h)).
    { intros h H. cbn in H. destruct (drop_held k h) as [h'|] eqn:Eh; [|destruct H].
      apply drop_held_inv in Eh as (x & w & y & -> & _). rewrite map_app. apply in_or_app. right. left. reflexivity. }
    destruct HT as [H O|p hs d h r' Ep' Eh Hok Nd Hc HU Hn H O|r' Ep' H O].
    + rewrite Ep in H. apply I1, H.
    + destruct p as [|a p].
      * cbn in Ep'. rewrite Eh, map_app. apply in_or_app. right. rewrite Ep in Ep'. apply I1. rewrite Ep'. exact H.
      * rewrite Ep in Ep'. injection Ep' as <- _. cbn in Hok. rewrite !andb_true_iff in Hok. destruct Hok as ((Hk & _) & _).
        apply mem_lock_In in Hk. rewrite Eh, map_app. apply in_or_app. left. unfold wr. rewrite map_map. cbn. rewrite map_id. exact Hk.
    + destruct Ep' as [Ep'|Ep']; rewrite Ep in Ep'; discriminate.
Qed.
Lemma held_somewhere k ths : writers k ths <> 0 \/ readers k ths <> 0 ->
  exists t th, nth_error ths t = Some th /\ In k (map fst (t_held th)).
Proof.
  intros [H|H]; apply total_pos in H as (t & th & Ht & Hf); exists t, th; (split; [exact Ht|]);
    rewrite holds_cnt in Hf; apply cnt_In in Hf; apply (in_map fst) in Hf; exact Hf.
Qed.
Lemma lock_free_moves c t th k : nth_error (c_threads c) t = Some th -> waits_for th = Some k ->
  writers k (c_threads c) = 0 -> readers k (c_threads c) = 0 -> can_move c.
Proof.
  intros Ht Hw W R. unfold waits_for in Hw. destruct (t_prog th) as [|[k0 w|?|? ?|?|?|?] r] eqn:Ep; try discriminate Hw.
  injection Hw as ->. destruct (Nat.eq_dec (queued k (c_threads c)) 0) as [Q|Q].
  - exists t, (c_cur c), []. unfold move. rewrite Ht, Ep, W, R, Q. cbn. destruct w; [destruct (t_ann th)|]; eexists; reflexivity.
  - apply total_pos in Q as (u & x & Hu & Hx). unfold pending in Hx.
    destruct (t_prog x) as [|[k1 [|]|?|? ?|?|?|?] r1] eqn:Ex; try congruence.
    destruct (t_ann x) eqn:Ea; [|cbn in Hx; congruence]. cbn in Hx. destruct (lock_eqb k k1) eqn:E1; [|congruence].
    apply lock_eqb_true in E1 as <-. exists u, (c_cur c), []. unfold move. rewrite Hu, Ex, Ea, W, R. cbn. eexists. reflexivity.
Qed.
Lemma tord_finished th : tord th -> t_prog th = [] -> t_held th = [].
Proof.
  intros [H O|p hs d h r Ep Eh Hok Nd Hc HU Hn H O|r Ep H O] E.
  - rewrite E in H. exact H.
  - rewrite E in Ep. symmetry in Ep. apply app_eq_nil in Ep as (-> & ->). cbn in Hok, H. destruct hs; [|discriminate]. subst h. exact Eh.
  - destruct Ep as [Ep|Ep]; congruence.
Qed.

Lemma c42_progress_inv c : oinv c -> finished c \/ can_move c \/ broken c.
Proof.
  intros HO. assert (D : forall th, {t_prog th = []} + {t_prog th <> []}).
  { intros th. destruct (t_prog th); [left; reflexivity|right; discriminate]. }
  destruct (Forall_Exists_dec (fun th => t_prog th = []) D (c_threads c)) as [H|H]; [left; exact H|right].
  apply Exists_exists in H as (th & Hin & Hp). apply In_nth_error in Hin as (t & Ht).
  assert (G : forall n t th k, nth_error (c_threads c) t = Some th -> waits_for th = Some k -> 6 - lrank c k <= n ->
    can_move c \/ broken c).
  { induction n as [|n IH]; intros u x k Hu Hw Hn.
    - assert (lrank c k <= 5) by (destruct k as [| | |b i|]; [cbn; lia|cbn; lia|cbn; lia|pose proof (lrank_seg c b i); lia|cbn; lia]). lia.
    - destruct (Nat.eq_dec (writers k (c_threads c)) 0) as [W|W].
      1: destruct (Nat.eq_dec (readers k (c_threads c)) 0) as [R|R]; [left; eapply lock_free_moves; eassumption|].
      all: destruct (held_somewhere k (c_threads c)) as (v & y & Hv & Hk); [auto|];
        (assert (Npy : t_prog y <> []) by
          (intros C; apply (tord_finished y) in C; [rewrite C in Hk; destruct Hk|]; apply (proj2 HO v y Hv)));
        destruct (ready c v y HO Hv Npy) as [A|[A|(k' & Hw')]]; [auto|auto|];
        pose proof (waits_rank c v y k k' HO Hv Hw' Hk) as Hr; apply (IH v y k' Hv Hw'); lia. }
  destruct (ready c t th HO Ht Hp) as [A|[A|(k & Hw)]]; [auto|auto|]. apply (G 6 t th k Ht Hw). lia.
Qed.
