(** Proofs about the collection of lists: paging. *)
From Coq Require Import Strings.Ascii.
From Verif.Lib Require Import Prelude ListAux ListLemmas SortLemmas Bytes.
From Verif.Model Require Import Lists.
Open Scope nat_scope.

(** ** the order on IDs *)
Lemma blt_irrefl a : blt a a = false.
Proof. induction a as [|x a IH]; cbn [blt]; [reflexivity|]. rewrite N.ltb_irrefl. exact IH. Qed.
Lemma blt_trans a b c : blt a b = true -> blt b c = true -> blt a c = true.
Proof.
  revert b c. induction a as [|x a IH]; intros [|y b] [|z c]; cbn [blt]; try congruence.
  destruct (N_of_ascii x <? N_of_ascii y)%N eqn:E1; destruct (N_of_ascii y <? N_of_ascii x)%N eqn:E2;
  destruct (N_of_ascii y <? N_of_ascii z)%N eqn:E3; destruct (N_of_ascii z <? N_of_ascii y)%N eqn:E4;
  destruct (N_of_ascii x <? N_of_ascii z)%N eqn:E5; destruct (N_of_ascii z <? N_of_ascii x)%N eqn:E6;
  try congruence; try lia. apply IH.
Qed.
Lemma blt_total a b : blt a b = false -> blt b a = false -> a = b.
Proof.
  revert b. induction a as [|x a IH]; intros [|y b]; cbn [blt]; try congruence.
  destruct (N_of_ascii x <? N_of_ascii y)%N eqn:E1; destruct (N_of_ascii y <? N_of_ascii x)%N eqn:E2; try congruence.
  intros A B. f_equal; [|apply IH; assumption].
  rewrite <- (ascii_N_embedding x), <- (ascii_N_embedding y). f_equal. lia.
Qed.
Lemma blt_asym a b : blt a b = true -> blt b a = false.
Proof. intros H. destruct (blt b a) eqn:E; [|reflexivity]. rewrite <- (blt_irrefl a). symmetry. apply (blt_trans a b a); assumption. Qed.
Lemma ble_trans a b c : blt b a = false -> blt c b = false -> blt c a = false.
Proof.
  intros H1 H2. destruct (blt c a) eqn:E; [|reflexivity]. exfalso.
  destruct (blt a b) eqn:Eab.
  - pose proof (blt_trans _ _ _ E Eab). congruence.
  - rewrite (blt_total _ _ Eab H1) in E. congruence.
Qed.
Lemma blt_ne a b : blt a b = true -> a <> b.
Proof. intros H ->. rewrite blt_irrefl in H. discriminate. Qed.
Lemma ble_ne a b : blt a b = false -> a <> b -> blt b a = true.
Proof. intros H N. destruct (blt b a) eqn:E; [reflexivity|]. exfalso. apply N, blt_total; assumption. Qed.
Lemma blt_nil a b : blt a b = true -> blt [] b = true.
Proof. destruct b; [destruct a; discriminate|reflexivity]. Qed.

Notation sorted := (StronglySorted (ltp blt)).
Notation bsort := (sort_by blt).
Lemma bsort_sorted s : NoDup s -> sorted (bsort s).
Proof.
  intros N. assert (H : StronglySorted (lep blt) (bsort s)) by (apply sort_by_sorted; [apply blt_asym|apply ble_trans]).
  assert (N' : NoDup (bsort s)) by (eapply Permutation_NoDup; [symmetry; apply sort_by_perm|exact N]).
  revert N'. induction H as [|x r Hr IH Hx]; intros N'; [constructor|]. inv N'. constructor; [auto|].
  rewrite Forall_forall in *. intros y Hy. apply ble_ne; [apply Hx, Hy|]. intros ->. contradiction.
Qed.
Lemma sorted_eq a b : sorted a -> sorted b -> Permutation a b -> a = b.
Proof.
  intros Ha Hb P. apply (sorted_unique (ltp blt)); auto.
  - intros x H. unfold ltp in H. rewrite blt_irrefl in H. discriminate.
  - intros x y H H'. unfold ltp in *. rewrite (blt_asym _ _ H) in H'. discriminate.
  - intros x. split; apply Permutation_in; [|symmetry]; exact P.
Qed.
Lemma bsort_of_sorted l s : sorted l -> Permutation l s -> NoDup s -> bsort s = l.
Proof. intros Hl P N. apply sorted_eq; [apply bsort_sorted, N|exact Hl|]. rewrite sort_by_perm. symmetry. exact P. Qed.
Lemma sorted_NoDup l : sorted l -> NoDup l.
Proof.
  induction 1 as [|x r Hr IH Hx]; constructor; auto. rewrite Forall_forall in Hx. intros I. apply Hx in I.
  unfold ltp in I. rewrite blt_irrefl in I. discriminate.
Qed.

Lemma upd_app_last {A} (f : A -> A) a x : upd_nth (length a) f (a ++ [x]) = a ++ [f x].
Proof. induction a as [|y a IH]; cbn; [reflexivity|]. rewrite IH. reflexivity. Qed.
Lemma partition_len {A} (p : A -> bool) l : length (filter p l) + length (filter (fun x => negb (p x)) l) = length l.
Proof. induction l as [|x l IH]; cbn; [reflexivity|]. destruct (p x); cbn; lia. Qed.

(** ** forward *)
Record ainv (from : bytes) (n : nat) (P : list bytes) (st : scan) (a_rest : list bytes) : Prop := AInv {
  a_perm : Permutation (filter (blt from) P) (ss st ++ a_rest);
  a_after : after (pg st) = length a_rest;
  a_before : before (pg st) = length (filter (fun x => negb (blt from x)) P);
  a_full : a_rest = [] \/ length (ss st) = n;
  a_len : length (ss st) <= n;
  a_lt : forall x y, In x (ss st) -> In y a_rest -> blt x y = true;
  a_max : forall x, In x (ss st) -> blt (edge st) x = false;
  a_edge : (ss st = [] /\ edge st = []) \/ In (edge st) (ss st) }.

Lemma ainv_step from n P st id : 2 <= n -> NoDup (P ++ [id]) -> ex (ainv from n P st) ->
  ex (ainv from n (P ++ [id]) (after_step from n st id)).
Proof.
  intros Hn ND [rest [HP HA HB HF HL HLt HM HE]].
  destruct st as [s last [b a]]. cbn [ss edge pg before after] in *. unfold after_step.
  assert (NDs : NoDup (s ++ rest ++ [id])).
  { apply NoDup_app_iff in ND as (N1 & N2 & N3).
    rewrite app_assoc. apply NoDup_app_intro.
    - eapply Permutation_NoDup; [exact HP|]. apply NoDup_filter, N1.
    - exact N2.
    - intros x Hx. apply N3. apply (Permutation_in x (Permutation_sym HP)) in Hx. apply filter_In in Hx. tauto. }
  destruct (blt from id) eqn:Ef.
  - assert (Fi : filter (blt from) (P ++ [id]) = filter (blt from) P ++ [id]) by (rewrite filter_app; cbn; rewrite Ef; reflexivity).
    assert (Fn : filter (fun x => negb (blt from x)) (P ++ [id]) = filter (fun x => negb (blt from x)) P)
      by (rewrite filter_app; cbn; rewrite Ef; cbn; apply app_nil_r).
    destruct (length s =? n) eqn:El.
    + apply Nat.eqb_eq in El.
      assert (Es : s <> []) by (intros ->; cbn in El; lia).
      destruct HE as [HE|HE]; [destruct HE; contradiction|].
      destruct (blt last id) eqn:Eli.
      * exists (rest ++ [id]); split; cbn [ss edge pg before after]; rewrite ?Fi, ?Fn; auto.
        -- rewrite HP, <- app_assoc. reflexivity.
        -- rewrite app_length; cbn; lia.
        -- intros x y Hx Hy. apply in_app_or in Hy as [Hy|[<-|[]]]; [auto|].
           destruct (blt x last) eqn:E2; [apply (blt_trans _ _ _ E2 Eli)|].
           rewrite (blt_total _ _ E2 (HM x Hx)). exact Eli.
      * assert (Nid : last <> id).
        { intros ->. apply NoDup_app_iff in NDs as (_ & _ & D). apply (D id HE). apply in_or_app. right. left. reflexivity. }
        pose proof (ble_ne _ _ Eli Nid) as Hid. clear Eli.
        assert (Ns : NoDup s) by (apply NoDup_app_iff in NDs; tauto).
        pose proof (bsort_sorted s Ns) as So. pose proof (sort_by_perm blt s) as Ps.
        assert (Lsort : length (bsort s) = n) by (rewrite sort_by_length; exact El).
        destruct (exists_last (l := bsort s)) as (s' & mx & Es').
        { intros E. rewrite E in Lsort. cbn in Lsort. lia. }
        rewrite Es' in *. rewrite app_length in Lsort. cbn in Lsort.
        assert (Emx : mx = last).
        { apply StronglySorted_app in So as (_ & _ & So).
          assert (I : In last (s' ++ [mx])) by (apply (Permutation_in _ (Permutation_sym Ps)), HE).
          apply in_app_or in I as [I|[I|[]]]; [|exact I]. exfalso.
          assert (Im : In mx s) by (apply (Permutation_in _ Ps), in_or_app; right; left; reflexivity).
          pose proof (So last mx I (or_introl eq_refl)) as C. unfold ltp in C. rewrite (HM mx Im) in C. discriminate. }
        subst mx.
        destruct (exists_last (l := s')) as (s'' & l2 & Es''). { intros ->. cbn in Lsort. lia. }
        assert (Ls'' : length s'' = n - 2) by (rewrite Es'', app_length in Lsort; cbn in Lsort; lia).
        replace (nth (n - 2) (s' ++ [last]) []) with l2.
        2:{ rewrite Es'', <- app_assoc. rewrite app_nth2 by lia. rewrite Ls'', Nat.sub_diag. reflexivity. }
        unfold set_nth. replace (n - 1) with (length s') by lia. rewrite upd_app_last.
        apply StronglySorted_app in So as (So1 & _ & So2).
        assert (Hs' : forall x, In x s' -> blt l2 x = false /\ blt x last = true).
        { intros x Hx. split; [|apply So2; [exact Hx|left; reflexivity]].
          rewrite Es'' in Hx, So1. apply in_app_or in Hx as [Hx|[<-|[]]]; [|apply blt_irrefl].
          apply StronglySorted_app in So1 as (_ & _ & So1). apply blt_asym, So1; [exact Hx|left; reflexivity]. }
        assert (Il2 : In l2 s') by (rewrite Es''; apply in_or_app; right; left; reflexivity).
        exists (last :: rest); split; cbn [ss edge pg before after]; rewrite ?Fi, ?Fn; auto.
        -- rewrite HP, <- Ps. rewrite <- !app_assoc. apply Permutation_app_head. cbn.
           rewrite (Permutation_app_comm rest [id]). apply perm_swap.
        -- cbn; lia.
        -- right. rewrite app_length. cbn. lia.
        -- rewrite app_length. cbn. lia.
        -- intros x y Hx Hy.
           assert (Hx2 : blt x last = true) by (apply in_app_or in Hx as [Hx|[<-|[]]]; [apply Hs', Hx|exact Hid]).
           destruct Hy as [<-|Hy]; [exact Hx2|]. apply (blt_trans _ _ _ Hx2), HLt; [exact HE|exact Hy].
        -- intros x Hx. destruct (blt l2 id) eqn:E3.
           ++ apply in_app_or in Hx as [Hx|[<-|[]]]; [|apply blt_irrefl].
              apply (ble_trans x l2 id); [apply Hs', Hx|apply blt_asym, E3].
           ++ apply in_app_or in Hx as [Hx|[<-|[]]]; [apply Hs', Hx|exact E3].
        -- right. apply in_or_app. destruct (blt l2 id); [right; left; reflexivity|left; exact Il2].
    + apply Nat.eqb_neq in El. destruct HF as [->|HF]; [|contradiction].
      exists []; split; cbn [ss edge pg before after]; rewrite ?Fi, ?Fn; auto.
      * rewrite HP, !app_nil_r. reflexivity.
      * rewrite app_length. cbn. lia.
      * intros x Hx. apply in_app_or in Hx as [Hx|[<-|[]]].
        -- destruct (blt last id) eqn:E3; [|auto]. apply (ble_trans x last id); [auto|apply blt_asym, E3].
        -- destruct (blt last id) eqn:E3; [apply blt_irrefl|exact E3].
      * right. apply in_or_app. destruct (blt last id) eqn:E3; [right; left; reflexivity|left].
        destruct HE as [(-> & ->)|HE]; [|exact HE]. exfalso.
        pose proof (blt_nil _ _ Ef). congruence.
  - exists rest; split; cbn [ss edge pg before after]; auto.
    + rewrite filter_app. cbn. rewrite Ef, app_nil_r. exact HP.
    + rewrite filter_app. cbn. rewrite Ef. cbn. rewrite app_length. cbn. lia.
Qed.

(** ** the final page of a forward scan *)
Lemma ainv_run from n : 2 <= n -> forall Q P st, NoDup (P ++ Q) -> ex (ainv from n P st) ->
  ex (ainv from n (P ++ Q) (fold_left (after_step from n) Q st)).
Proof.
  intros Hn Q. induction Q as [|id Q IH]; intros P st ND H; cbn [fold_left].
  - rewrite app_nil_r. exact H.
  - change (P ++ id :: Q) with (P ++ [id] ++ Q) in *. rewrite app_assoc in *. apply IH; [exact ND|].
    apply ainv_step; auto. apply NoDup_app_iff in ND. tauto.
Qed.

Lemma filter_NoDup_perm (p : bytes -> bool) ids L : NoDup ids -> NoDup L ->
  (forall id, In id L <-> In id ids /\ p id = true) -> Permutation (filter p ids) L.
Proof.
  intros N1 N2 H. apply NoDup_Permutation; [apply NoDup_filter, N1|exact N2|].
  intros x. rewrite filter_In. symmetry. apply H.
Qed.

Lemma after_scan from n ids L : 2 <= n -> NoDup ids -> sorted L -> (forall id, In id L <-> In id ids /\ blt from id = true) ->
  let st := fold_left (after_step from n) ids (Scan [] [] (Page 0 0)) in
  bsort (ss st) = firstn n L /\ after (pg st) = length (skipn n L) /\ before (pg st) + length L = length ids.
Proof.
  intros Hn ND SL HL st.
  assert (I : ex (ainv from n ids st)).
  { apply (ainv_run from n Hn ids []); [exact ND|]. exists []; split; cbn; auto; try lia; contradiction. }
  destruct I as [rest [HP HA HB HF HLe HLt HM HE]].
  pose proof (filter_NoDup_perm _ _ _ ND (sorted_NoDup _ SL) HL) as PL.
  assert (ND2 : NoDup (ss st ++ rest)).
  { eapply Permutation_NoDup; [|apply sorted_NoDup, SL]. rewrite <- PL. exact HP. }
  apply NoDup_app_iff in ND2 as (N1 & N2 & N3).
  assert (E : L = bsort (ss st) ++ bsort rest).
  { apply sorted_eq; [exact SL| |].
    - apply StronglySorted_app. split; [apply bsort_sorted, N1|]. split; [apply bsort_sorted, N2|].
      intros x y Hx Hy. apply HLt; [apply (sort_by_In blt), Hx|apply (sort_by_In blt), Hy].
    - rewrite <- PL, HP. rewrite !sort_by_perm. reflexivity. }
  assert (Lb : length (bsort (ss st)) = length (ss st)) by apply sort_by_length.
  assert (Lr : length (bsort rest) = length rest) by apply sort_by_length.
  split; [|split].
  - rewrite E. destruct HF as [->|HF].
    + cbn. rewrite app_nil_r. rewrite firstn_all2 by lia. reflexivity.
    + rewrite firstn_app, Lb, HF, Nat.sub_diag. cbn. rewrite app_nil_r, firstn_all2 by lia. reflexivity.
  - rewrite HA, E, skipn_length, app_length, Lb, Lr. destruct HF as [->|HF]; [cbn|]; lia.
  - rewrite HB. rewrite <- (Permutation_length PL). pose proof (partition_len (blt from) ids). lia.
Qed.

(** ** the order of the specification *)
From Verif.Spec Require Import ListsSpec.

Lemma precedes_blt a b : precedes a b <-> blt a b = true.
Proof.
  split.
  - intros [(c & r & ->)|(p & c & r & d & q & -> & -> & H)].
    + induction a as [|x a IH]; cbn [app blt]; [reflexivity|]. rewrite N.ltb_irrefl. exact IH.
    + induction p as [|x p IH]; cbn [app blt]; [|rewrite N.ltb_irrefl; exact IH].
      apply N.ltb_lt in H. rewrite H. reflexivity.
  - revert b. induction a as [|x a IH]; intros [|y b]; cbn [blt]; try discriminate.
    + intros _. left. exists y, b. reflexivity.
    + destruct (N_of_ascii x <? N_of_ascii y)%N eqn:E1.
      * intros _. right. exists [], x, a, y, b. split; [reflexivity|]. split; [reflexivity|]. apply N.ltb_lt, E1.
      * destruct (N_of_ascii y <? N_of_ascii x)%N eqn:E2; [discriminate|]. intros H.
        assert (x = y) as <- by (rewrite <- (ascii_N_embedding x), <- (ascii_N_embedding y); f_equal; lia).
        apply IH in H as [(c & r & ->)|(p & c & r & d & q & -> & -> & H)].
        -- left. exists c, r. reflexivity.
        -- right. exists (x :: p), c, r, d, q. auto.
Qed.
Lemma precedes_sorted L : StronglySorted precedes L <-> sorted L.
Proof. split; apply StronglySorted_impl_In; intros x y _ _; apply precedes_blt. Qed.

Lemma in_ids ls id : (exists l, In l ls /\ lid l = id) <-> In id (map lid ls).
Proof.
  rewrite in_map_iff. split; intros (l & A & B); exists l; auto.
Qed.

(** ** fetching the lists *)
Lemma by_id_some m id l : by_id m id = Some l -> In l m /\ lid l = id.
Proof. intros H. apply find_some in H as (H1 & H2). split; [exact H1|]. apply beq_true in H2. auto. Qed.
Lemma by_id_none m id : by_id m id = None <-> forall l, In l m -> lid l <> id.
Proof.
  unfold by_id. split.
  - intros H l Hl E. pose proof (find_none _ _ H l Hl) as C. unfold has_id in C. rewrite E, beq_refl in C. discriminate.
  - intros H. destruct (find _ _) eqn:E; [|reflexivity]. apply by_id_some in E as (A & B). exfalso. apply (H _ A B).
Qed.
Lemma collect_all_members m ids :
  members m ids (flat_map (fun id => match by_id m id with Some l => [l] | None => [] end) ids).
Proof.
  induction ids as [|id ids IH]; cbn [flat_map]; [constructor|]. destruct (by_id m id) as [l|] eqn:E.
  - apply by_id_some in E as (A & B). cbn. constructor; auto.
  - apply members_out; [|exact IH]. apply by_id_none, E.
Qed.
Lemma flat_len m ids :
  length (flat_map (fun id => match by_id m id with Some l => [l] | None => [] end) ids) <= length ids.
Proof. induction ids as [|id ids IH]; cbn [flat_map length]; [lia|]. rewrite app_length. destruct (by_id m id); cbn [length]; lia. Qed.
Lemma collect_members m n ids : length ids <= n -> members m ids (collect m n ids).
Proof.
  intros H. unfold collect. rewrite firstn_all2; [apply collect_all_members|]. pose proof (flat_len m ids). lia.
Qed.
Lemma members_all m ids r : members m ids r -> (forall id, In id ids -> In id (map lid m)) -> map lid r = ids.
Proof.
  induction 1 as [|id ids l ls Hl E _ IH|id ids ls Hn _ IH]; intros H; cbn [map]; [reflexivity| |].
  - rewrite E, IH; [reflexivity|]. intros x Hx. apply H. right. exact Hx.
  - exfalso. destruct (proj2 (in_ids m id) (H id (or_introl eq_refl))) as (l & A & B). apply (Hn l A B).
Qed.

Theorem c29_page : forall enum now from n L, distinct enum -> (0 < n)%Z -> ascending enum (precedes from) L ->
  let '(r, p) := sorted_after enum now from n in
  members now (firstn (Z.to_nat n) L) r /\
  after p = length (skipn (Z.to_nat n) L) /\ before p + length L = length enum.
Proof.
  intros enum now from n L D Hn (SL & HL). unfold sorted_after.
  replace (n <=? 0)%Z with false by lia.
  apply precedes_sorted in SL.
  assert (HL' : forall id, In id L <-> In id (map lid enum) /\ blt from id = true).
  { intros id. rewrite HL, in_ids, precedes_blt. reflexivity. }
  destruct (n =? 1)%Z eqn:E1.
  - apply Z.eqb_eq in E1. subst n. cbn [andb].
    pose proof (after_scan from 2 (map lid enum) L ltac:(lia) D SL HL') as H. cbn zeta in H.
    destruct (fold_left _ _ _) as [s e [b a]]. cbn [ss pg before after] in *. destruct H as (H1 & H2 & H3). rewrite H1.
    rewrite map_length in H3. rewrite firstn_length.
    change (Z.to_nat 1) with 1.
    destruct (1 <? Nat.min 2 (length L)) eqn:E2.
    + apply Nat.ltb_lt in E2. cbn [before after].
      replace (firstn 1 (firstn 2 L)) with (firstn 1 L) by (rewrite firstn_firstn; reflexivity).
      split; [apply collect_members; rewrite firstn_length; lia|]. split; [|exact H3].
      rewrite skipn_length in *. lia.
    + apply Nat.ltb_ge in E2. cbn [before after].
      replace (firstn 2 L) with (firstn 1 L) by (rewrite !firstn_all2 by lia; reflexivity).
      split; [apply collect_members; rewrite firstn_length; lia|]. split; [|exact H3].
      rewrite skipn_length in *. lia.
  - cbn [andb].
    pose proof (after_scan from (Z.to_nat n) (map lid enum) L ltac:(lia) D SL HL') as H. cbn zeta in H.
    destruct (fold_left _ _ _) as [s e [b a]]. cbn [ss pg before after] in *. destruct H as (H1 & H2 & H3). rewrite H1.
    rewrite map_length in H3. split; [|split; assumption].
    apply collect_members. rewrite firstn_length. lia.
Qed.

Theorem c29_exact : forall enum from n L, distinct enum -> (0 < n)%Z -> ascending enum (precedes from) L ->
  let '(r, p) := sorted_after enum enum from n in
  map lid r = firstn (Z.to_nat n) L /\ incl r enum /\
  after p = length (skipn (Z.to_nat n) L) /\ before p + length L = length enum.
Proof.
  intros enum from n L D Hn HA. pose proof (c29_page enum enum from n L D Hn HA) as H.
  destruct (sorted_after enum enum from n) as [r p]. destruct H as (H1 & H2 & H3).
  split; [|split; [|auto]].
  - apply (members_all enum); [exact H1|]. intros id Hi. apply In_firstn in Hi. apply HA in Hi. apply in_ids. tauto.
  - clear - H1. intros x Hx. induction H1 as [|id ids l ls Hl E _ IH|id ids ls Hn _ IH]; [destruct Hx| |auto].
    destruct Hx as [<-|Hx]; auto.
Qed.
Theorem c29_none : forall enum now from n, (n <= 0)%Z -> sorted_after enum now from n = ([], Page 0 0).
Proof. intros. unfold sorted_after. replace (n <=? 0)%Z with true by lia. reflexivity. Qed.
