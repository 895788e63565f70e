(** Retry, bucket and error collector. *)
From Verif.Lib Require Import Prelude ListAux ListLemmas.
From Verif.Model Require Import Small.
From Verif.Proof Require Import ChangeP.
Open Scope nat_scope.

(** ** retry *)
(** the attempt ends the loop *)
Definition goes_on {A} (perm : list nat) (a : attempt A) : Prop :=
  exists e, at_res a = inr e /\ ~ In e perm /\ at_done a = false /\ at_stop a = false /\ at_cut a = false.
Lemma op_err_spec perm d e : op_err perm d e = (e, if in_dec Nat.eq_dec e perm then true else d).
Proof.
  unfold op_err. destruct (in_dec Nat.eq_dec e perm) as [H|H].
  - assert (E : existsb (Nat.eqb e) perm = true) by (apply existsb_exists; exists e; rewrite Nat.eqb_refl; auto). rewrite E. reflexivity.
  - destruct (existsb (Nat.eqb e) perm) eqn:E; [|reflexivity]. exfalso. apply existsb_exists in E as (x & Hx & Ex). apply Nat.eqb_eq in Ex. congruence.
Qed.
Lemma c38_retry {A} perm : forall (atts : list (attempt A)) r rest, retry perm atts = Some (r, rest) <->
  exists before a, atts = before ++ a :: rest /\ Forall (goes_on perm) before /\ ~ goes_on perm a /\ r = at_res a.
Proof.
  induction atts as [|a atts IH]; intros r rest; cbn [retry].
  - split; [discriminate|]. intros (b & a & E & _). destruct b; discriminate.
  - assert (Hstop : ~ goes_on perm a -> (exists before a0, a :: atts = before ++ a0 :: rest /\ Forall (goes_on perm) before /\ ~ goes_on perm a0 /\ r = at_res a0) <-> (r = at_res a /\ rest = atts)).
    { intros Ha. split.
      - intros (b & a0 & E & F & _ & ->). destruct b as [|y b]; [injection E as -> ->; auto|]. injection E as <- _. inversion F; contradiction.
      - intros (-> & ->). exists [], a. repeat split; auto. }
    destruct (at_res a) as [x|e] eqn:Ea.
    + rewrite Hstop; [split; [intros E; injection E as <- <-; auto|intros (-> & ->); auto]|].
      intros (e & C & _). congruence.
    + rewrite op_err_spec. destruct (in_dec Nat.eq_dec e perm) as [Hin|Hout].
      * rewrite Hstop; [split; [intros E; injection E as <- <-; auto|intros (-> & ->); auto]|].
        intros (e' & C & D & _). congruence.
      * destruct (at_done a) eqn:Ed; [|destruct (at_stop a || at_cut a) eqn:Es].
        -- rewrite Hstop; [split; [intros E; injection E as <- <-; auto|intros (-> & ->); auto]|]. intros (e' & C & D & F & _). congruence.
        -- rewrite Hstop; [split; [intros E; injection E as <- <-; auto|intros (-> & ->); auto]|].
           intros (e' & C & D & F & G1 & G2). rewrite G1, G2 in Es. discriminate.
        -- apply orb_false_iff in Es as (E1 & E2). assert (Hg : goes_on perm a) by (exists e; auto).
           rewrite IH. split.
           ++ intros (b & a0 & -> & F & H). exists (a :: b), a0. split; [reflexivity|]. split; [constructor; assumption|exact H].
           ++ intros (b & a0 & E & F & H & Hr). destruct b as [|y b]; [injection E as <- <-; contradiction|].
              injection E as <- ->. inversion F; subst. exists b, a0. auto.
Qed.
Lemma c38_get {A} perm (atts : list (attempt A)) b e : rs_get true perm atts = Some (b, e) ->
  exists before a rest, atts = before ++ a :: rest /\ Forall (goes_on perm) before /\ ~ goes_on perm a /\
    match at_res a with inl x => b = Some x /\ e = None | inr x => b = None /\ e = Some x end.
Proof.
  unfold rs_get. destruct (retry perm atts) as [([x|x] & rest)|] eqn:E; [| |discriminate]; intros H; injection H as <- <-;
    apply c38_retry in E as (bf & a & -> & F & G & R); exists bf, a, rest; rewrite <- R; auto.
Qed.

(** the map used by a new store, and what happens to the shared map *)
Definition errs_of (l : list (option nat)) : list nat := flat_map (fun e => match e with Some e => [e] | None => [] end) l.
Definition popts (opts : list (list (option nat))) (p : heap * nat) : heap * nat :=
  fold_left (fun '(h, own) errs => permanent_err errs h own) opts p.
Lemma popts_cons errs opts h own : popts (errs :: opts) (h, own) = popts opts (permanent_err errs h own).
Proof. reflexivity. Qed.
Lemma perm_own errs h own : own < length h ->
  nth (snd (permanent_err errs h own)) (fst (permanent_err errs h own)) [] = nth own h [] /\
  snd (permanent_err errs h own) < length (fst (permanent_err errs h own)).
Proof.
  intros Ho. destruct errs as [|e errs]; cbn [permanent_err fst snd]; [auto|]. split.
  - rewrite app_nth2 by (rewrite upd_nth_length; lia). rewrite upd_nth_length, Nat.sub_diag. reflexivity.
  - rewrite app_length, upd_nth_length. cbn. lia.
Qed.
Lemma perms_own opts : forall h own, own < length h ->
  nth (snd (popts opts (h, own))) (fst (popts opts (h, own))) [] = nth own h [].
Proof.
  induction opts as [|errs opts IH]; intros h own Ho; [reflexivity|]. rewrite popts_cons.
  destruct (perm_own errs h own Ho) as (H1 & H2). destruct (permanent_err errs h own) as (h1 & own1). cbn [fst snd] in *.
  rewrite IH by exact H2. exact H1.
Qed.
Lemma c38_own opts h h' own : 0 < length h -> new_retry opts h = (h', own) -> nth own h' [] = nth 0 h [].
Proof. intros Hh E. pose proof (perms_own opts h 0 Hh) as H. change (new_retry opts h) with (popts opts (h, 0)) in E. rewrite E in H. exact H. Qed.
Lemma nth_upd {A} (d : A) i f l : i < length l -> nth i (upd_nth i f l) d = f (nth i l d).
Proof. revert i. induction l as [|x l IH]; intros [|i]; cbn; intros H; try lia; [reflexivity|]. apply IH. lia. Qed.
Lemma nth_upd_ne {A} (d : A) i j f l : i <> j -> nth j (upd_nth i f l) d = nth j l d.
Proof. revert i j. induction l as [|x l IH]; intros [|i] [|j] H; cbn; try reflexivity; try lia. apply IH. lia. Qed.
Lemma perm_keep errs h own i : own < length h -> i < length h -> i <> own ->
  nth i (fst (permanent_err errs h own)) [] = nth i h [] /\ length h <= length (fst (permanent_err errs h own)).
Proof.
  intros Ho Hi Hn. destruct errs; cbn [permanent_err fst]; [auto|]. rewrite app_nth1 by (rewrite upd_nth_length; lia).
  rewrite nth_upd_ne by lia. rewrite app_length, upd_nth_length. split; [reflexivity|lia].
Qed.
Lemma perms_keep opts : forall h own i, own < length h -> i < length h -> i <> own ->
  nth i (fst (popts opts (h, own))) [] = nth i h [].
Proof.
  induction opts as [|errs opts IH]; intros h own i Ho Hi Hn; [reflexivity|]. rewrite popts_cons.
  destruct (perm_own errs h own Ho) as (_ & H3). destruct (perm_keep errs h own i Ho Hi Hn) as (H1 & H2).
  destruct (permanent_err errs h own) as (h1 & own1) eqn:E. cbn [fst snd] in *.
  rewrite IH; [exact H1|exact H3|lia|]. destruct errs; cbn in E; injection E as <- <-; [exact Hn|lia].
Qed.
Lemma c38_shared opts h : 0 < length h ->
  nth 0 (fst (new_retry opts h)) [] = nth 0 h [] ++ errs_of (hd [] (filter (fun l => negb (Nat.eqb (length l) 0)) opts)).
Proof.
  intros Hh. change (new_retry opts h) with (popts opts (h, 0)). induction opts as [|errs opts IH]; [cbn; rewrite app_nil_r; reflexivity|].
  rewrite popts_cons.
  destruct errs as [|e errs]; [exact IH|]. cbn [permanent_err filter length Nat.eqb negb hd].
  rewrite perms_keep.
  - rewrite app_nth1 by (rewrite upd_nth_length; lia). rewrite nth_upd by exact Hh. reflexivity.
  - rewrite app_length, upd_nth_length. cbn. lia.
  - rewrite app_length, upd_nth_length. cbn. lia.
  - lia.
Qed.

(** ** bucket *)
Definition sum (l : list nat) : nat := fold_right Nat.add 0 l.
Lemma sum_upd i l h f : nth_error l i = Some h -> sum (upd_nth i f l) + h = sum l + f h.
Proof.
  revert l. induction i as [|i IH]; intros [|x l] E; try discriminate.
  - injection E as <-. cbn. lia.
  - cbn [nth_error] in E. specialize (IH _ E). cbn [upd_nth sum fold_right]. fold (sum l). fold (sum (upd_nth i f l)). lia.
Qed.
Lemma fill_ok cap : forall k c, c + k <= cap -> fill k cap c = Some (c + k).
Proof.
  induction k as [|k IH]; intros c H; cbn [fill].
  - rewrite Nat.add_0_r. reflexivity.
  - destruct (Nat.ltb_spec c cap); [|lia]. rewrite IH by lia. rewrite Nat.add_succ_r. reflexivity.
Qed.
Lemma new_ok n w : new_bucket n w = Some (mkB n n (repeat 0 w)).
Proof. unfold new_bucket. rewrite fill_ok by lia. reflexivity. Qed.
Lemma sum_zero w : sum (repeat 0 w) = 0.
Proof. induction w; cbn; auto. Qed.
Lemma c39_inv n w b : breach n w b -> b_cap b = n /\ b_chan b + sum (b_held b) = n /\ length (b_held b) = w.
Proof.
  induction 1 as [b E|b b' H IH St].
  - rewrite new_ok in E. injection E as <-. cbn -[sum]. rewrite sum_zero, repeat_length. lia.
  - destruct IH as (A & B & C). inversion St as [? g h Hg Hc|? g h Hg Hc]; subst; cbn -[sum]; rewrite upd_nth_length.
    + pose proof (sum_upd _ _ _ S Hg). lia.
    + pose proof (sum_upd _ _ _ (fun n => n - 1) Hg). cbn -[sum] in H0. lia.
Qed.
Lemma sum_in l h i : nth_error l i = Some h -> h <= sum l.
Proof.
  revert i. induction l as [|x l IH]; intros [|i] E; cbn [nth_error] in E; try discriminate; change (sum (x :: l)) with (x + sum l).
  - injection E as <-. lia.
  - specialize (IH _ E). lia.
Qed.
Lemma c39_get n w b g : breach n w b -> g < w -> (sum (b_held b) < n <-> exists b', bstep b b' /\ nth g (b_held b') 0 = S (nth g (b_held b) 0)).
Proof.
  intros H Hg. destruct (c39_inv _ _ _ H) as (A & B & C). destruct (nth_error (b_held b) g) as [h|] eqn:E; [|apply nth_error_None in E; lia]. split.
  - intros Hs. eexists. split; [apply (B_get b g h E); lia|]. cbn. apply nth_upd. lia.
  - intros (b' & St & Hn). inversion St as [? g' h' Hg' Hc|? g' h' Hg' Hc]; subst; [lia|]. cbn in Hn. exfalso.
    destruct (Nat.eq_dec g' g) as [->|Hne]; [rewrite nth_upd in Hn by lia; lia|]. rewrite nth_upd_ne in Hn by exact Hne. lia.
Qed.
Lemma c39_release n w b g h : breach n w b -> nth_error (b_held b) g = Some (S h) ->
  exists b', bstep b b' /\ nth_error (b_held b') g = Some h.
Proof.
  intros H Hg. destruct (c39_inv _ _ _ H) as (A & B & C). pose proof (sum_in _ _ _ Hg).
  eexists. split; [apply (B_release b g h Hg); lia|]. cbn. rewrite upd_nth_nth, Hg. destruct (Nat.eqb_spec g g); [|congruence]. cbn. f_equal. lia.
Qed.

(** ** error collector *)
Definition left (ws : list worker) : list nat := concat (map w_errs ws).
Definition weight (w : worker) : nat := length (w_errs w) + (if w_done w then 0 else 1).
Definition wsum (ws : list worker) : nat := sum (map weight ws).
Definition measure (c : wcfg) : nat :=
  wsum (wc_w c) + (if wc_closed c then 0 else 1) + (if wc_ctx c then 0 else 1) +
  match wc_col c with Collecting _ => 2 | Flushing => 1 | Returned _ => 0 end.
Lemma wsum_upd i ws w w' : nth_error ws i = Some w -> wsum (upd_nth i (fun _ => w') ws) + weight w = wsum ws + weight w'.
Proof.
  intros E. unfold wsum. pose proof (sum_upd i (map weight ws) (weight w) (fun _ => weight w')) as H.
  rewrite nth_error_map, E in H. specialize (H eq_refl). replace (map weight (upd_nth i (fun _ => w') ws)) with (upd_nth i (fun _ => weight w') (map weight ws)); [exact H|].
  clear. revert i. induction ws as [|x ws IH]; intros [|i]; cbn; try reflexivity. f_equal. apply IH.
Qed.
Lemma wstep_dec c c' : wstep c c' -> measure c' < measure c.
Proof.
  intros St. unfold measure.
  inversion St as [? i H|? H H1|? H|? i e es got H H1|? i e es H H1|? got H H1|? got H H1|? H H1]; subst; cbn -[wsum].
  - pose proof (wsum_upd _ _ _ (mkW [] true) H) as HS. cbn -[wsum] in HS. lia.
  - rewrite H1. lia.
  - rewrite H. lia.
  - pose proof (wsum_upd _ _ _ (mkW es false) H) as HS. cbn -[wsum] in HS. rewrite H1. lia.
  - pose proof (wsum_upd _ _ _ (mkW es false) H) as HS. cbn -[wsum] in HS. rewrite H1. lia.
  - rewrite H1. lia.
  - rewrite H1. lia.
  - rewrite H1. lia.
Qed.
Lemma c41_terminates c n c' : wexec c n c' -> n + measure c' <= measure c.
Proof. induction 1 as [c|c c1 n c2 St E IH]; [lia|]. apply wstep_dec in St. lia. Qed.

Record WInv (errs : list (list nat)) (c : wcfg) : Prop := {
  wi_done : forall w, In w (wc_w c) -> w_done w = true -> w_errs w = [];
  wi_closed : wc_closed c = true -> all_done (wc_w c) = true;
  wi_got : forall got, wc_col c = Collecting got -> Permutation (got ++ left (wc_w c)) (concat errs);
  wi_flush : wc_col c = Flushing -> wc_ctx c = true;
  wi_ret : forall o, wc_col c = Returned o -> wc_closed c = true /\
     match o with ONil => concat errs = [] | OErrs n e => n = length (concat errs) /\ In e (concat errs) | OCtx => wc_ctx c = true end
}.
Lemma left_upd i ws e es : nth_error ws i = Some (mkW (e :: es) false) ->
  Permutation (e :: left (upd_nth i (fun _ => mkW es false) ws)) (left ws).
Proof.
  unfold left. revert i. induction ws as [|w ws IH]; intros [|i] E; cbn in *; try discriminate.
  - injection E as ->. reflexivity.
  - rewrite <- (IH _ E). apply Permutation_middle.
Qed.
Lemma left_done i ws : nth_error ws i = Some (mkW [] false) -> left (upd_nth i (fun _ => mkW [] true) ws) = left ws.
Proof.
  unfold left. revert i. induction ws as [|w ws IH]; intros [|i] E; cbn in *; try discriminate.
  - injection E as ->. reflexivity.
  - rewrite (IH _ E). reflexivity.
Qed.
Lemma left_nil ws : (forall w, In w ws -> w_done w = true -> w_errs w = []) -> all_done ws = true -> left ws = [].
Proof.
  unfold left, all_done. induction ws as [|w ws IH]; intros H D; cbn in *; [reflexivity|]. apply andb_true_iff in D as (D1 & D2).
  rewrite (H w) by auto. apply IH; auto.
Qed.
Lemma upd_in {A} i (x : A) l y : In y (upd_nth i (fun _ => x) l) -> y = x \/ In y l.
Proof. revert i. induction l as [|z l IH]; intros [|i]; cbn; auto; intros [H|H]; auto. destruct (IH _ H); auto. Qed.
Lemma all_done_nth ws i w : all_done ws = true -> nth_error ws i = Some w -> w_done w = true.
Proof. intros D E. unfold all_done in D. rewrite forallb_forall in D. apply D. eapply nth_error_In, E. Qed.
Lemma w_inv_step errs c c' : WInv errs c -> wstep c c' -> WInv errs c'.
Proof.
  intros [I1 I2 I3 I4 I5] St.
  inversion St as [? i H|? H H1|? H|? i e es got H H1|? i e es H H1|? got H H1|? got H H1|? H H1]; subst; constructor; cbn -[left]; auto; try discriminate.
  - intros w Hw. apply upd_in in Hw as [->|Hw]; auto.
  - intros Hc. specialize (I2 Hc). pose proof (all_done_nth _ _ _ I2 H). discriminate.
  - intros got E. rewrite left_done by exact H. auto.
  - intros o E. destruct (I5 o E) as (A & B). split; [auto|]. destruct o; auto.
  - intros o E. destruct (I5 o E) as (A & B). split; [auto|]. destruct o; auto.
  - intros w Hw. apply upd_in in Hw as [->|Hw]; auto. discriminate.
  - intros Hc. specialize (I2 Hc). pose proof (all_done_nth _ _ _ I2 H). discriminate.
  - intros g E. injection E as <-. rewrite <- app_assoc. cbn -[left]. rewrite (left_upd _ _ _ _ H). auto.
  - intros w Hw. apply upd_in in Hw as [->|Hw]; auto. discriminate.
  - intros Hc. specialize (I2 Hc). pose proof (all_done_nth _ _ _ I2 H). discriminate.
  - intros o E. injection E as <-. split; [exact H|]. specialize (I3 _ H1). rewrite (left_nil _ I1 (I2 H)), app_nil_r in I3. destruct got as [|e got].
    + apply Permutation_nil in I3. exact I3.
    + split; [apply Permutation_length, I3|]. eapply Permutation_in; [exact I3|left; reflexivity].
  - intros o E. injection E as <-. auto.
Qed.
Lemma w_inv_start errs ctx : WInv errs (wstart errs ctx).
Proof.
  constructor; cbn; try discriminate.
  - intros w Hw. apply in_map_iff in Hw as (es & <- & _). discriminate.
  - intros got E. injection E as <-. cbn. unfold left. rewrite map_map. cbn. rewrite map_id. reflexivity.
Qed.
Lemma w_inv errs ctx n c : wexec (wstart errs ctx) n c -> WInv errs c.
Proof.
  assert (L : forall a n b, wexec a n b -> WInv errs a -> WInv errs b).
  { induction 1; auto. intros. apply IHwexec. eapply w_inv_step; eauto. }
  intros E. eapply L; [exact E|apply w_inv_start].
Qed.
Lemma c41_result errs ctx n c o : wexec (wstart errs ctx) n c -> wc_col c = Returned o ->
  forallb w_done (wc_w c) = true /\
  match o with
  | ONil => concat errs = []
  | OErrs k e => k = length (concat errs) /\ In e (concat errs)
  | OCtx => wc_ctx c = true
  end.
Proof.
  intros E Ho. pose proof (w_inv _ _ _ _ E) as I. destruct (wi_ret _ _ I o Ho) as (A & B). split; [apply (wi_closed _ _ I A)|exact B].
Qed.
Lemma c41_progress errs ctx n c : wexec (wstart errs ctx) n c -> (forall o, wc_col c <> Returned o) ->
  exists c', wstep c c' /\ wc_ctx c' = wc_ctx c.
Proof.
  intros E Hn. pose proof (w_inv _ _ _ _ E) as [I1 I2 I3 I4 I5].
  destruct (wc_col c) as [got| |o] eqn:Ec; [| |destruct (Hn o); reflexivity].
  - destruct (all_done (wc_w c)) eqn:D.
    + destruct (wc_closed c) eqn:Cl; [eexists; split; [eapply W_end; eauto|reflexivity]|eexists; split; [eapply W_close; eauto|reflexivity]].
    + assert (exists i es, nth_error (wc_w c) i = Some (mkW es false)) as (i & es & Hi).
      { clear - D. unfold all_done in D. induction (wc_w c) as [|[es d] ws IH]; [discriminate|]. cbn in D. destruct d; cbn in D.
        - destruct (IH D) as (i & es' & H). exists (S i), es'. exact H.
        - exists 0, es. reflexivity. }
      destruct es as [|e es]; [eexists; split; [eapply W_done; eauto|reflexivity]|eexists; split; [eapply W_recv; eauto|reflexivity]].
  - destruct (all_done (wc_w c)) eqn:D.
    + destruct (wc_closed c) eqn:Cl; [eexists; split; [eapply W_endctx; eauto|reflexivity]|eexists; split; [eapply W_close; eauto|reflexivity]].
    + assert (exists i es, nth_error (wc_w c) i = Some (mkW es false)) as (i & es & Hi).
      { clear - D. unfold all_done in D. induction (wc_w c) as [|[es d] ws IH]; [discriminate|]. cbn in D. destruct d; cbn in D.
        - destruct (IH D) as (i & es' & H). exists (S i), es'. exact H.
        - exists 0, es. reflexivity. }
      destruct es as [|e es]; [eexists; split; [eapply W_done; eauto|reflexivity]|eexists; split; [eapply W_flush; eauto|reflexivity]].
Qed.
