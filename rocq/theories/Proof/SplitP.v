(** Split and merge of segments keep contents and order. *)
From Coq Require Import Strings.String.
From Verif.Lib Require Import Prelude ListAux ListLemmas SortLemmas Perm.
From Verif.Model Require Import Element Elements Segment List.
From Verif.Spec Require Import RankSpec QuerySpec.
From Verif.Proof Require Import ElementP ElementsP ElementsThm SegP InvDef QueryP LookupP ChangeP UpdateP UpdateInv DeleteP BuildP.
Open Scope N_scope.

(** ** list surgery *)
Lemma tile_from_app : forall a k c, tile_from k (a ++ c) -> c <> [] ->
  exists k', tile_from k' c /\ forall c', c' <> [] -> tile_from k' c' -> tile_from k (a ++ c').
Proof.
  induction a as [|s a IH]; intros k c H Hc; [exists k; auto|].
  cbn [app tile_from] in H. destruct H as (H1 & H2 & H3 & H4).
  destruct (a ++ c) as [|y r] eqn:E; [destruct a; cbn in E; congruence|]. destruct H4 as (H4 & H5).
  rewrite <- E in H5. destruct (IH _ _ H5 Hc) as (k' & A & B). exists k'. split; [exact A|].
  intros c' Hc' Hk'. cbn [app tile_from]. split; [exact H1|]. split; [exact H2|]. split; [exact H3|].
  destruct (a ++ c') as [|y' r'] eqn:E'; [destruct a; cbn in E'; congruence|].
  rewrite <- E'. split; [exact H4|]. apply B; auto.
Qed.

Lemma score_ok_surgery P l l' : score_ok P l -> tile l' -> elems_of l' = elems_of l ->
  (forall s x, In s l' -> In x (sg_elems s) -> in_range s x) -> score_ok P l'.
Proof.
  intros HS HT HE HR. split; [exact HT| |apply HS|apply HS].
  pose proof (score_ok_ranked _ _ HS) as Hrk. rewrite <- HE in Hrk.
  assert (Hh : holds (fun x => In x (elems_of l')) l').
  { apply (holds_intro topk); auto. intros s Hs. apply in_split in Hs as (a & b & E).
    rewrite E, elems_of_app, elems_of_cons in Hrk.
    apply StronglySorted_app in Hrk as (_ & Hrk & _). apply StronglySorted_app in Hrk as (Hrk & _). exact Hrk. }
  unfold holds in *. eapply Forall_impl; [|exact Hh]. intros s (A & B). split; [exact A|].
  intros x. rewrite B, HE, (score_ok_In P l x HS). tauto.
Qed.

Lemma nth_split_eq {A} (l : list A) i x : nth_error l i = Some x ->
  exists a b, l = a ++ x :: b /\ length a = i.
Proof. intros H. apply nth_error_split in H as (a & b & E & L). eauto. Qed.

Lemma upd_nth_mid {A} (a b : list A) x f : upd_nth (length a) f (a ++ x :: b) = a ++ f x :: b.
Proof. induction a as [|y a IH]; cbn; [reflexivity|]. rewrite IH. reflexivity. Qed.
Lemma del_nth_mid {A} (a b : list A) x : del_nth (length a) (a ++ x :: b) = a ++ b.
Proof. induction a as [|y a IH]; cbn; [reflexivity|]. rewrite IH. reflexivity. Qed.
Lemma ins_nth_mid {A} (a b : list A) x : ins_nth (length a) x (a ++ b) = a ++ x :: b.
Proof. induction a as [|y a IH]; cbn; [destruct b; reflexivity|]. rewrite IH. reflexivity. Qed.

(** ** one split *)
Lemma above_this_kk s t : s <= max_u64 -> t <= max_u32 -> kk s t < topk ->
  kk (fst (above_this s t)) (snd (above_this s t)) = kk s t + 1 /\
  snd (above_this s t) <= max_u32 /\ fst (above_this s t) <= max_u64 /\
  (t = max_u32 -> snd (above_this s t) = 0).
Proof.
  unfold above_this, topk, kk. intros Hs Ht Hk.
  destruct ((s =? max_u64) && (t =? max_u32)) eqn:E1; [unfold max_u64, max_u32 in *; lia|].
  destruct (t =? max_u32) eqn:E2; cbn; unfold max_u64, max_u32 in *; lia.
Qed.

Lemma split_size_nil k : split_size [] k = Some [[]] \/ split_size [] k = None.
Proof. unfold split_size. cbn. destruct k; auto. Qed.

(** facts about the two halves *)
Lemma split_seg_spec isidx id now s s1 s2 ch :
  split_seg isidx id now s = Some (s1, s2, ch) ->
  ranked (sg_elems s) -> Forall elem_ok (sg_elems s) ->
  (isidx = true -> StronglySorted (fun x y => e_score y < e_score x) (sg_elems s)) ->
  (isidx = true -> sg_mintie s = 0 /\ sg_maxtie s = max_u32) ->
  widths s -> (forall x, In x (sg_elems s) -> in_range s x) ->
  sg_elems s = sg_elems s1 ++ sg_elems s2 /\ ch = map (fun x => (e_id x, id)) (sg_elems s2) /\
  kmax s1 = kmax s /\ kmin s2 = kmin s /\ 0 < kmin s1 /\ kmax s2 = kmin s1 - 1 /\
  kmin s1 <= kmax s1 /\ kmin s2 <= kmax s2 /\ widths s1 /\ widths s2 /\
  (forall x, In x (sg_elems s1) -> in_range s1 x) /\ (forall x, In x (sg_elems s2) -> in_range s2 x) /\
  sg_id s1 = sg_id s /\ sg_id s2 = id /\ sg_parent s1 = sg_parent s /\ sg_parent s2 = sg_parent s /\
  (isidx = true -> sg_mintie s1 = 0 /\ sg_maxtie s1 = max_u32 /\ sg_mintie s2 = 0 /\ sg_maxtie s2 = max_u32).
Proof.
  intros E Hr Hok Hix Hal Hw Hin. unfold split_seg in E.
  assert (Hne : sg_elems s <> []).
  { intros C. rewrite C in E. destruct (split_size_nil ((length (@nil element) + 1) / 2)) as [H|H]; rewrite H in E; discriminate. }
  assert (Hk : (0 < (length (sg_elems s) + 1) / 2)%nat).
  { apply Nat.div_str_pos. destruct (sg_elems s); [congruence|]. cbn [length]. lia. }
  destruct (split_chain _ _ Hr Hok Hne Hk) as (parts & Ep & Hc & Hch & _). rewrite Ep in E.
  destruct parts as [|p [|q [|? ?]]]; try discriminate. cbn [concat] in Hc. rewrite app_nil_r in Hc.
  destruct q as [|e q]; [discriminate|]. cbn [chain concat] in Hch. destruct Hch as (Hp & Hlt & _).
  rewrite app_nil_r in Hlt. cbn [min_max] in E.
  rewrite <- Hc in Hr, Hok, Hix, Hin. apply Forall_app in Hok as (Hokp & Hokq).
  apply StronglySorted_app in Hr as (Hrp & Hrq & Hpq).
  assert (Hoke : elem_ok e) by (inversion Hokq; auto).
  assert (Hlp : In (last p dflt) p) by (apply last_In; exact Hp).
  assert (Hokl : elem_ok (last p dflt)) by (rewrite Forall_forall in Hokp; auto).
  assert (Hqe : forall y, In y (e :: q) -> key y <= key e).
  { intros y [<-|Hy]; [lia|]. apply StronglySorted_inv in Hrq as (_ & Hf). rewrite Forall_forall in Hf.
    apply Above_key_le; auto. rewrite Forall_forall in Hokq. apply Hokq. right; exact Hy. }
  assert (Hpe : forall x, In x p -> key e < key x).
  { intros x Hx. pose proof (last_below p dflt x Hrp Hokp Hx). specialize (Hlt e (or_introl eq_refl)). lia. }
  assert (Hine : in_range s e) by (apply Hin; apply in_or_app; right; left; reflexivity).
  assert (Hinp : forall x, In x p -> in_range s x) by (intros; apply Hin; apply in_or_app; auto).
  assert (Hinq : forall x, In x (e :: q) -> in_range s x) by (intros; apply Hin; apply in_or_app; auto).
  assert (Hsc : isidx = true -> forall x, In x p -> e_score e < e_score x).
  { intros Hx x Hxp. apply Hix in Hx. apply StronglySorted_app in Hx as (_ & _ & Hx). apply Hx; cbn; auto. }
  assert (Hsq : forall y, In y (e :: q) -> e_score y <= e_score e).
  { intros y Hy. apply key_score_le; auto. rewrite Forall_forall in Hokq. auto. }
  set (ne := if isidx then max_u32 else e_tie e).
  assert (Hne32 : ne <= max_u32) by (unfold ne; destruct isidx; [lia|]; unfold elem_ok in Hoke; tauto).
  assert (Hes : e_score e <= max_u64) by (unfold elem_ok in Hoke; tauto).
  assert (Hpk : forall x, In x p -> kk (e_score e) ne < key x).
  { intros x Hx. unfold ne. destruct isidx; [|apply Hpe; exact Hx]. specialize (Hsc eq_refl x Hx).
    unfold key, kk, max_u32. lia. }
  assert (Htop : kk (e_score e) ne < topk).
  { specialize (Hpk _ Hlp). pose proof (key_le_top _ Hokl). lia. }
  destruct (above_this_kk _ _ Hes Hne32 Htop) as (A1 & A2 & A3 & A4).
  assert (Hqk : forall x, In x (e :: q) -> key x <= kk (e_score e) ne).
  { intros x Hx. unfold ne. destruct isidx; [|apply (Hqe x Hx)]. specialize (Hsq x Hx).
    assert (elem_ok x) by (rewrite Forall_forall in Hokq; auto). unfold elem_ok, key, kk, max_u32 in *. lia. }
  assert (E' : Some (mkSeg (sg_id s) (fst (above_this (e_score e) ne)) (sg_max s) (snd (above_this (e_score e) ne)) (sg_maxtie s) (length p) (sg_upd s) (sg_parent s) p,
                     mkSeg id (sg_min s) (e_score e) (sg_mintie s) ne (length (e :: q)) now (sg_parent s) (e :: q),
                     map (fun x => (e_id x, id)) (e :: q)) = Some (s1, s2, ch)).
  { rewrite <- E. unfold ne. destruct isidx; destruct (above_this _ _); reflexivity. }
  clear E. injection E' as <- <- <-. unfold widths in Hw. destruct Hw as (W1 & W2 & W3 & W4).
  unfold in_range, kmin, kmax, widths in *.
  cbn [sg_elems sg_min sg_max sg_mintie sg_maxtie sg_id sg_parent] in *.
  rewrite A1. 
  pose proof (Hinp _ Hlp) as HL. pose proof (Hpk _ Hlp) as HL2. pose proof (Hqk e (or_introl eq_refl)) as HE2.
  split; [symmetry; exact Hc|]. split; [reflexivity|]. split; [reflexivity|]. split; [reflexivity|].
  split; [lia|]. split; [lia|]. split; [lia|]. split; [lia|]. split; [auto|]. split; [auto|].
  split; [intros x Hx; specialize (Hpk x Hx); specialize (Hinp x Hx); lia|].
  split; [intros x Hx; specialize (Hqk x Hx); specialize (Hinq x Hx); lia|].
  do 4 (split; [reflexivity|]). intros ->. destruct (Hal eq_refl) as (B1 & B2). unfold ne in *. auto.
Qed.

(** ** The loop *)
Record sok (isidx : bool) (name : string) (P : element -> Prop) (l : list seg) (next : N) : Prop := {
  k_s : score_ok P l;
  k_al : isidx = true -> aligned l /\ forall x, P x -> idx_elem x;
  k_nd : NoDup (map sg_id l);
  k_id : Forall (fun s => 0 < sg_id s < next) l;
  k_meta : Forall (seg_meta name) l
}.

(** where every element of [l] was in [l0], or is sent to by [us] *)
Record moved (l0 : list seg) (i : nat) (l : list seg) (us : list upd_entry) : Prop := {
  j_at : forall s x, In s l -> In x (sg_elems s) ->
    In (e_id x, sg_id s) us \/
    (~ In (e_id x) (map fst us) /\ exists s0, In s0 l0 /\ In x (sg_elems s0) /\ sg_id s0 = sg_id s);
  j_nd : NoDup (map fst us);
  j_pre : forall id, In id (map fst us) -> exists s x, In s (firstn i l) /\ In x (sg_elems s) /\ e_id x = id
}.

Lemma in_mid {A} (a b : list A) x y : In y (a ++ x :: b) <-> y = x \/ In y (a ++ b).
Proof. rewrite !in_app_iff. cbn. intuition. Qed.

Lemma set_n_same name s : seg_meta name s -> set_n s = s.
Proof. intros (A & _). unfold set_n. rewrite <- A. destruct s; reflexivity. Qed.

Lemma upd_nth_self {A} (f : A -> A) l i x : nth_error l i = Some x -> f x = x -> upd_nth i f l = l.
Proof.
  intros H E. apply nth_split_eq in H as (a & b & -> & <-). rewrite upd_nth_mid, E. reflexivity.
Qed.

Lemma sok_seg isidx name P l next s : sok isidx name P l next -> In s l ->
  ranked (sg_elems s) /\ Forall elem_ok (sg_elems s) /\
  (isidx = true -> StronglySorted (fun x y => e_score y < e_score x) (sg_elems s)) /\
  (isidx = true -> sg_mintie s = 0 /\ sg_maxtie s = max_u32) /\ widths s /\
  (forall x, In x (sg_elems s) -> in_range s x).
Proof.
  intros HK Hs. pose proof (k_s _ _ _ _ _ HK) as HS.
  pose proof (score_ok_ranked _ _ HS) as HR. pose proof (score_ok_distinct _ _ HS) as HD.
  assert (HP : forall x, In x (sg_elems s) -> P x /\ in_range s x) by (intros x Hx; eapply score_ok_seg; eauto).
  assert (HRs : ranked (sg_elems s) /\ distinct_ids (sg_elems s)).
  { apply in_split in Hs as (a & b & E). rewrite E, elems_of_app, elems_of_cons in HR, HD.
    apply StronglySorted_app in HR as (_ & HR & _). apply StronglySorted_app in HR as (HR & _).
    apply distinct_ids_app_r, distinct_ids_app_l in HD. auto. }
  destruct HRs as (HRs & HDs). split; [exact HRs|].
  split; [apply Forall_forall; intros x Hx; apply good_ok, (so_good _ _ HS), HP; exact Hx|].
  split.
  { intros Hi. destruct (k_al _ _ _ _ _ HK Hi) as (_ & HF).
    clear - HRs HDs HP HF. unfold distinct_ids in HDs. induction HRs as [|x r Hr IH Hf]; constructor.
    - inversion HDs; subst. apply IH; auto. intros y Hy. apply HP. right; exact Hy.
    - rewrite Forall_forall in *. intros y Hy. specialize (Hf y Hy).
      inversion HDs as [|? ? A B]; subst.
      assert (e_id y <> e_id x) by (intros C; apply A; rewrite <- C; apply in_map; exact Hy).
      destruct (HF x) as (Fx & _); [apply HP; left; reflexivity|].
      destruct (HF y) as (Fy & _); [apply HP; right; exact Hy|]. unfold Above in Hf. lia. }
  split.
  { intros Hi. destruct (k_al _ _ _ _ _ HK Hi) as (HA & _). unfold aligned in HA. rewrite Forall_forall in HA. auto. }
  split; [|intros x Hx; apply HP; exact Hx].
  pose proof (tile_from_widths _ _ (so_tile _ _ HS)) as Hw. rewrite Forall_forall in Hw. auto.
Qed.

Lemma sok_split isidx name P a s b next now s1 s2 ch :
  0 < now < max_u32 -> 0 < next -> sok isidx name P (a ++ s :: b) next -> split_seg isidx next now s = Some (s1, s2, ch) ->
  sok isidx name P (a ++ touch now s1 :: touch now s2 :: b) (next + 1) /\
  elems_of (a ++ touch now s1 :: touch now s2 :: b) = elems_of (a ++ s :: b) /\
  sg_elems s = sg_elems s1 ++ sg_elems s2 /\ ch = map (fun x => (e_id x, next)) (sg_elems s2) /\
  sg_id s1 = sg_id s /\ sg_id s2 = next.
Proof.
  intros Hnow Hnx HK E.
  assert (Hin : In s (a ++ s :: b)) by (apply in_or_app; cbn; auto).
  destruct (sok_seg _ _ _ _ _ _ HK Hin) as (H1 & H2 & H3 & H4 & H5 & H6).
  destruct (split_seg_spec _ _ _ _ _ _ _ E H1 H2 H3 H4 H5 H6)
    as (Ee & Ec & K1 & K2 & K3 & K4 & K5 & K6 & W1 & W2 & R1 & R2 & I1 & I2 & P1 & P2 & A1).
  assert (EE : elems_of (a ++ touch now s1 :: touch now s2 :: b) = elems_of (a ++ s :: b)).
  { rewrite !elems_of_app, !elems_of_cons. cbn [sg_elems touch]. rewrite Ee, <- app_assoc. reflexivity. }
  split; [|auto 10].
  pose proof (k_s _ _ _ _ _ HK) as HS. split.
  - apply (score_ok_surgery P (a ++ s :: b)); auto.
    + destruct (tile_from_app a topk (s :: b) (so_tile _ _ HS)) as (k' & B1 & B2); [discriminate|].
      apply B2; [discriminate|]. cbn [tile_from] in *. destruct B1 as (C1 & C2 & C3 & C4).
      change (kmax (touch now s1)) with (kmax s1). change (kmin (touch now s1)) with (kmin s1).
      change (kmax (touch now s2)) with (kmax s2). change (kmin (touch now s2)) with (kmin s2).
      change (widths (touch now s1)) with (widths s1). change (widths (touch now s2)) with (widths s2).
      rewrite K1, K2. split; [exact C1|]. split; [lia|]. split; [exact W1|]. split; [exact K3|].
      split; [exact K4|]. split; [rewrite <- K2; exact K6|]. split; [exact W2|]. exact C4.
    + intros t x Ht Hx. rewrite in_mid in Ht. destruct Ht as [->|Ht]; [apply R1; exact Hx|].
      rewrite in_mid in Ht. destruct Ht as [->|Ht]; [apply R2; exact Hx|].
      eapply score_ok_seg; [exact HS| |exact Hx]. rewrite in_mid. auto.
  - intros Hi. destruct (k_al _ _ _ _ _ HK Hi) as (HA & HF). split; [|exact HF].
    unfold aligned in *. rewrite Forall_forall in *. intros t Ht. rewrite in_mid in Ht. destruct (A1 Hi) as (? & ? & ? & ?).
    destruct Ht as [->|Ht]; [cbn; auto|]. rewrite in_mid in Ht. destruct Ht as [->|Ht]; [cbn; auto|].
    apply HA. rewrite in_mid. auto.
  - pose proof (k_nd _ _ _ _ _ HK) as HN. pose proof (k_id _ _ _ _ _ HK) as HI.
    assert (Hperm : Permutation (map sg_id (a ++ touch now s1 :: touch now s2 :: b)) (next :: map sg_id (a ++ s :: b))).
    { rewrite !map_app. cbn [map]. cbn [touch sg_id]. rewrite I1, I2.
      replace (map sg_id a ++ sg_id s :: next :: map sg_id b) with ((map sg_id a ++ [sg_id s]) ++ next :: map sg_id b) by (rewrite <- app_assoc; reflexivity).
      symmetry. etransitivity; [|apply Permutation_middle]. rewrite <- app_assoc. reflexivity. }
    eapply Permutation_NoDup; [symmetry; exact Hperm|]. constructor; [|exact HN].
    intros C. apply in_map_iff in C as (t & Et & Ht). rewrite Forall_forall in HI. specialize (HI t Ht). lia.
  - pose proof (k_id _ _ _ _ _ HK) as HI. rewrite Forall_forall in *. intros t Ht. rewrite in_mid in Ht.
    destruct Ht as [->|Ht]; [cbn; rewrite I1; specialize (HI s Hin); lia|].
    rewrite in_mid in Ht. destruct Ht as [->|Ht]; [cbn; rewrite I2; lia|].
    assert (Hx : In t (a ++ s :: b)) by (rewrite in_mid; auto). specialize (HI t Hx). lia.
  - pose proof (k_meta _ _ _ _ _ HK) as HM. rewrite Forall_forall in *. destruct (HM s Hin) as (_ & _ & Hn).
    intros t Ht. rewrite in_mid in Ht. destruct Ht as [->|Ht].
    { unfold seg_meta. cbn. rewrite P1. auto. }
    rewrite in_mid in Ht. destruct Ht as [->|Ht]; [unfold seg_meta; cbn; rewrite P2; auto|].
    apply HM. rewrite in_mid. auto.
Qed.

Lemma sok_merge isidx name P a p s b next now :
  0 < now < max_u32 -> sok isidx name P (a ++ p :: s :: b) next ->
  sok isidx name P (a ++ fst (merge_segs now p s) :: b) next /\
  elems_of (a ++ fst (merge_segs now p s) :: b) = elems_of (a ++ p :: s :: b).
Proof.
  intros Hnow HK. set (m := fst (merge_segs now p s)).
  assert (Hp : In p (a ++ p :: s :: b)) by (apply in_or_app; cbn; auto).
  assert (Hs : In s (a ++ p :: s :: b)) by (apply in_or_app; cbn; auto).
  destruct (sok_seg _ _ _ _ _ _ HK Hp) as (_ & _ & _ & A1 & (Wp1 & Wp2 & Wp3 & Wp4) & R1).
  destruct (sok_seg _ _ _ _ _ _ HK Hs) as (_ & _ & _ & A2 & (Ws1 & Ws2 & Ws3 & Ws4) & R2).
  assert (EE : elems_of (a ++ m :: b) = elems_of (a ++ p :: s :: b)).
  { rewrite !elems_of_app, !elems_of_cons. unfold m, merge_segs. cbn [sg_elems touch fst]. rewrite <- app_assoc. reflexivity. }
  split; [|exact EE]. pose proof (k_s _ _ _ _ _ HK) as HS.
  destruct (tile_from_app a topk (p :: s :: b) (so_tile _ _ HS)) as (k' & B1 & B2); [discriminate|].
  cbn [tile_from] in B1. destruct B1 as (C1 & C2 & _ & C4 & D1 & D2 & _ & D4).
  assert (Km : kmin m = kmin s /\ kmax m = kmax p) by (unfold m, merge_segs, kmin, kmax; cbn; auto). destruct Km as (Km1 & Km2).
  assert (Wm : widths m) by (unfold m, merge_segs, widths; cbn; auto).
  split.
  - apply (score_ok_surgery P (a ++ p :: s :: b)); auto.
    + apply B2; [discriminate|]. cbn [tile_from]. rewrite Km1, Km2. split; [exact C1|]. split; [lia|].
      split; [exact Wm|]. exact D4.
    + intros t x Ht Hx. rewrite in_mid in Ht. destruct Ht as [->|Ht].
      * unfold in_range. rewrite Km1, Km2. unfold m, merge_segs in Hx. cbn [fst touch sg_elems] in Hx.
        apply in_app_or in Hx as [Hx|Hx]; [specialize (R1 x Hx); unfold in_range in R1; lia|].
        specialize (R2 x Hx). unfold in_range in R2. lia.
      * eapply score_ok_seg; [exact HS| |exact Hx]. rewrite !in_mid. auto.
  - intros Hi. destruct (k_al _ _ _ _ _ HK Hi) as (HA & HF). split; [|exact HF].
    unfold aligned in *. rewrite Forall_forall in *. intros t Ht. rewrite in_mid in Ht.
    destruct (A1 Hi), (A2 Hi). destruct Ht as [->|Ht]; [cbn; auto|]. apply HA. rewrite !in_mid. auto.
  - pose proof (k_nd _ _ _ _ _ HK) as HN. rewrite !map_app in *. cbn [map] in *.
    change (sg_id m) with (sg_id p).
    replace (map sg_id a ++ sg_id p :: sg_id s :: map sg_id b) with ((map sg_id a ++ [sg_id p]) ++ sg_id s :: map sg_id b) in HN by (rewrite <- app_assoc; reflexivity).
    apply NoDup_remove_1 in HN. rewrite <- app_assoc in HN. exact HN.
  - pose proof (k_id _ _ _ _ _ HK) as HI. rewrite Forall_forall in *. intros t Ht. rewrite in_mid in Ht.
    destruct Ht as [->|Ht]; [apply (HI p Hp)|]. apply HI. rewrite !in_mid. auto.
  - pose proof (k_meta _ _ _ _ _ HK) as HM. rewrite Forall_forall in *. intros t Ht. rewrite in_mid in Ht.
    destruct Ht as [->|Ht]; [|apply HM; rewrite !in_mid; auto].
    destruct (HM p Hp) as (_ & _ & Hn). unfold seg_meta, m, merge_segs. cbn. auto.
Qed.

Lemma dist_mid a s b t x y : distinct_ids (elems_of (a ++ s :: b)) -> In t (a ++ b) ->
  In x (sg_elems t) -> In y (sg_elems s) -> e_id x <> e_id y.
Proof.
  intros HD Ht Hx Hy C. unfold distinct_ids in HD.
  assert (HP : Permutation (elems_of (a ++ s :: b)) (sg_elems s ++ elems_of (a ++ b))).
  { rewrite !elems_of_app, elems_of_cons. rewrite !app_assoc. apply Permutation_app_tail. apply Permutation_app_comm. }
  eapply Permutation_NoDup in HD; [|apply Permutation_map; exact HP].
  rewrite map_app in HD. apply NoDup_app_iff in HD as (_ & _ & HD). apply (HD (e_id y)).
  - apply in_map; exact Hy.
  - rewrite <- C. apply in_map. apply elems_of_In. eauto.
Qed.

Lemma moved_weaken l0 i j l us : moved l0 i l us -> (i <= j)%nat -> moved l0 j l us.
Proof.
  intros [A B C] Hij. split; auto. intros id Hid. destruct (C id Hid) as (s & x & Hs & H).
  exists s, x. split; [|exact H]. replace (firstn i l) with (firstn i (firstn j l)) in Hs by (rewrite firstn_firstn; f_equal; lia).
  eapply In_firstn; eauto.
Qed.

Lemma fst_map_ch (e : elements) (t : N) : map fst (map (fun x => (e_id x, t)) e) = map e_id e.
Proof. rewrite map_map. reflexivity. Qed.

Lemma moved_split l0 i a s b us s1 s2 now next :
  moved l0 i (a ++ s :: b) us -> i = length a -> distinct_ids (elems_of (a ++ s :: b)) ->
  sg_elems s = sg_elems s1 ++ sg_elems s2 -> sg_id s1 = sg_id s -> sg_id s2 = next ->
  moved l0 (S (S i)) (a ++ touch now s1 :: touch now s2 :: b) (us ++ map (fun x => (e_id x, next)) (sg_elems s2)).
Proof.
  intros [A B C] Hi HD Ee I1 I2. subst i.
  assert (HDs : distinct_ids (sg_elems s1 ++ sg_elems s2)).
  { rewrite <- Ee. rewrite elems_of_app, elems_of_cons in HD. apply distinct_ids_app_r, distinct_ids_app_l in HD. exact HD. }
  assert (Hf : forall k, firstn (length a + k) (a ++ s :: b) = a ++ firstn k (s :: b)) by (intros; apply firstn_app_2).
  assert (Hin : In s (a ++ s :: b)) by (rewrite in_mid; auto).
  assert (Hch : forall id, In id (map fst (us ++ map (fun x => (e_id x, next)) (sg_elems s2))) <->
                           In id (map fst us) \/ exists y, In y (sg_elems s2) /\ e_id y = id).
  { intros id. rewrite map_app, in_app_iff, fst_map_ch, (in_map_iff e_id). split; (intros [H|(y & H1 & H2)]; [left; exact H|right; exists y; auto]). }
  assert (H2s : forall y, In y (sg_elems s2) -> In y (sg_elems s)) by (intros; rewrite Ee; apply in_or_app; auto).
  split.
  - intros t x Ht Hx. rewrite in_mid in Ht. destruct Ht as [->|Ht].
    + cbn [touch sg_elems sg_id] in *. rewrite I1.
      destruct (A s x Hin) as [H|(H & H0)]; [rewrite Ee; apply in_or_app; auto|left; apply in_or_app; auto|].
      right. split; [|exact H0]. rewrite Hch. intros [D|(y & Hy & Ey)]; [auto|].
      unfold distinct_ids in HDs. rewrite map_app in HDs. apply NoDup_app_iff in HDs as (_ & _ & HDs).
      apply (HDs (e_id x)); [apply in_map; exact Hx|rewrite <- Ey; apply in_map; exact Hy].
    + rewrite in_mid in Ht. destruct Ht as [->|Ht].
      * cbn [touch sg_elems sg_id] in *. rewrite I2. left. apply in_or_app. right.
        apply in_map_iff. exists x. auto.
      * destruct (A t x) as [H|(H & H0)]; [rewrite in_mid; auto|exact Hx|left; apply in_or_app; auto|].
        right. split; [|exact H0]. rewrite Hch. intros [D|(y & Hy & Ey)]; [auto|].
        apply (dist_mid a s b t x y HD Ht Hx (H2s y Hy)). congruence.
  - rewrite map_app, fst_map_ch. apply NoDup_app_intro; [exact B| |].
    + unfold distinct_ids in HDs. rewrite map_app in HDs. apply NoDup_app_iff in HDs. tauto.
    + intros id H1 H2. apply in_map_iff in H2 as (y & Ey & Hy).
      destruct (C id H1) as (t & x & Ht & Hx & Ex). specialize (Hf 0%nat). rewrite Nat.add_0_r in Hf.
      cbn [firstn] in Hf. rewrite app_nil_r in Hf. rewrite Hf in Ht.
      apply (dist_mid a s b t x y HD (in_or_app _ _ _ (or_introl Ht)) Hx (H2s y Hy)). congruence.
  - intros id Hid. rewrite Hch in Hid. replace (S (S (length a))) with (length a + 2)%nat by lia. rewrite firstn_app_2. cbn [firstn].
    destruct Hid as [Hid|(y & Hy & Ey)].
    + destruct (C id Hid) as (t & x & Ht & Hx & Ex). exists t, x. specialize (Hf 0%nat). rewrite Nat.add_0_r in Hf.
      cbn [firstn] in Hf. rewrite app_nil_r in Hf. rewrite Hf in Ht. split; [apply in_or_app; auto|auto].
    + exists (touch now s2), y. split; [apply in_or_app; cbn; auto|auto].
Qed.

Lemma moved_merge l0 a p s b us now :
  moved l0 (S (length a)) (a ++ p :: s :: b) us -> distinct_ids (elems_of (a ++ p :: s :: b)) ->
  moved l0 (S (S (S (length a)))) (a ++ fst (merge_segs now p s) :: b) (us ++ snd (merge_segs now p s)).
Proof.
  intros [A B C] HD. set (m := fst (merge_segs now p s)).
  assert (Em : sg_elems m = sg_elems p ++ sg_elems s) by reflexivity.
  assert (HD2 : distinct_ids (elems_of ((a ++ [p]) ++ s :: b))) by (rewrite <- app_assoc; exact HD).
  assert (Hp : In p (a ++ p :: s :: b)) by (rewrite in_mid; auto).
  change (snd (merge_segs now p s)) with (map (fun x => (e_id x, sg_id p)) (sg_elems s)).
  assert (Hch : forall id, In id (map fst (us ++ map (fun x => (e_id x, sg_id p)) (sg_elems s))) <->
                           In id (map fst us) \/ exists y, In y (sg_elems s) /\ e_id y = id).
  { intros id. rewrite map_app, in_app_iff, fst_map_ch, (in_map_iff e_id). split; (intros [H|(y & H1 & H2)]; [left; exact H|right; exists y; auto]). }
  assert (Hsep : forall t x y, In t ((a ++ [p]) ++ b) -> In x (sg_elems t) -> In y (sg_elems s) -> e_id x <> e_id y).
  { intros t x y Ht Hx Hy. eapply dist_mid; eauto. }
  assert (Hpin : In p ((a ++ [p]) ++ b)) by (rewrite !in_app_iff; cbn; auto).
  assert (Hpre : firstn (S (length a)) (a ++ p :: s :: b) = a ++ [p]).
  { replace (S (length a)) with (length a + 1)%nat by lia. rewrite firstn_app_2. reflexivity. }
  rewrite Hpre in C.
  split.
  - intros t x Ht Hx. rewrite in_mid in Ht. destruct Ht as [->|Ht].
    + change (sg_id m) with (sg_id p). rewrite Em in Hx. apply in_app_or in Hx as [Hx|Hx].
      * destruct (A p x Hp Hx) as [H|(H & H0)]; [left; apply in_or_app; auto|]. right. split; [|exact H0].
        rewrite Hch. intros [D|(y & Hy & Ey)]; [auto|]. apply (Hsep p x y Hpin Hx Hy). congruence.
      * left. apply in_or_app. right. apply in_map_iff. exists x. auto.
    + assert (Ht2 : In t (a ++ p :: s :: b)) by (rewrite !in_mid; auto).
      destruct (A t x Ht2 Hx) as [H|(H & H0)]; [left; apply in_or_app; auto|]. right. split; [|exact H0].
      rewrite Hch. intros [D|(y & Hy & Ey)]; [auto|].
      assert (Ht3 : In t ((a ++ [p]) ++ b)) by (rewrite !in_app_iff in *; cbn; tauto).
      apply (Hsep t x y Ht3 Hx Hy). congruence.
  - rewrite map_app, fst_map_ch. apply NoDup_app_intro; [exact B| |].
    + rewrite elems_of_app, elems_of_cons in HD2. apply distinct_ids_app_r, distinct_ids_app_l in HD2. exact HD2.
    + intros id H1 H2. apply in_map_iff in H2 as (y & Ey & Hy). destruct (C id H1) as (t & x & Ht & Hx & Ex).
      apply (Hsep t x y (in_or_app _ _ _ (or_introl Ht)) Hx Hy). congruence.
  - intros id Hid. rewrite Hch in Hid.
    replace (S (S (S (length a)))) with (length a + 3)%nat by lia. rewrite firstn_app_2.
    change (firstn 3 (m :: b)) with (m :: firstn 2 b).
    destruct Hid as [Hid|(y & Hy & Ey)].
    + destruct (C id Hid) as (t & x & Ht & Hx & Ex). apply in_app_or in Ht as [Ht|[<-|[]]].
      * exists t, x. split; [apply in_or_app; auto|auto].
      * exists m, x. split; [apply in_or_app; cbn; auto|]. rewrite Em. split; [apply in_or_app; auto|auto].
    + exists m, y. split; [apply in_or_app; cbn; auto|]. rewrite Em. split; [apply in_or_app; auto|auto].
Qed.

(** The loop always ends, whatever the segments hold *)
Lemma del_nth_length {A} (l : list A) i : (i < length l)%nat -> length (del_nth i l) = (length l - 1)%nat.
Proof. revert i; induction l as [|x r IH]; intros i H; cbn in *; [lia|]. destruct i; cbn; [lia|]. rewrite IH; lia. Qed.
Lemma ins_nth_length {A} (l : list A) i x : length (ins_nth i x l) = S (length l).
Proof. revert i; induction l as [|y r IH]; intros [|i]; cbn; auto. Qed.

Lemma split_loop_done isidx merge ms sz now : forall fuel i l next us upd,
  (length l <= i + fuel)%nat ->
  exists l' next' us' upd', split_loop_segs fuel isidx merge ms sz now i l next us upd = Done (l', next', us', upd') /\
    next <= next' <= next + N.of_nat (length l - i).
Proof.
  induction fuel as [|f IH]; intros i l next us upd Hf; cbn [split_loop_segs].
  - destruct (nth_error l i) eqn:E; [|do 4 eexists; split; [reflexivity|lia]].
    assert (i < length l)%nat by (apply nth_error_Some; congruence). lia.
  - destruct (nth_error l i) as [s|] eqn:E; [|do 4 eexists; split; [reflexivity|lia]].
    assert (Hi : (i < length l)%nat) by (apply nth_error_Some; congruence).
    assert (H1 : exists l' next' us' upd', split_loop_segs f isidx merge ms sz now (S i) l next us upd = Done (l', next', us', upd') /\
                 next <= next' <= next + N.of_nat (length l - i)).
    { destruct (IH (S i) l next us upd) as (l' & n' & u' & b' & A & B); [lia|]. do 4 eexists; split; [exact A|lia]. }
    assert (Hdef : forall l2 us2 upd2 i2, (length l2 <= length l)%nat -> (S i <= i2)%nat ->
      exists l' next' us' upd', split_loop_segs f isidx merge ms sz now i2 l2 next us2 upd2 = Done (l', next', us', upd') /\
                 next <= next' <= next + N.of_nat (length l - i)).
    { intros l2 us2 upd2 i2 L2 I2. destruct (IH i2 l2 next us2 upd2) as (l' & n' & u' & b' & A & B); [lia|]. do 4 eexists; split; [exact A|lia]. }
    destruct (Nat.ltb (sg_n s) sz).
    + destruct (if merge then i else O) as [|j]; [exact H1|].
      destruct (nth_error l (i - 1)) as [p|]; [|exact H1].
      destruct (Nat.ltb ms (sg_n s + sg_n p)); [exact H1|].
      destruct (merge_segs now p s) as (m & ch).
      apply Hdef; [|lia]. rewrite del_nth_length; rewrite upd_nth_length; lia.
    + destruct (split_seg isidx next now s) as [((s1 & s2) & ch)|].
      * edestruct IH as (l' & n' & u' & b' & A & B).
        2: { do 4 eexists. split; [exact A|]. rewrite ins_nth_length, upd_nth_length in B. lia. }
        rewrite ins_nth_length, upd_nth_length. lia.
      * destruct isidx; apply Hdef; rewrite ?upd_nth_length; lia.
Qed.

Lemma split_loop_ok isidx merge ms sz now name P l0 : 0 < now < max_u32 -> forall fuel i l next us upd l' next' us' upd',
  0 < next -> sok isidx name P l next -> moved l0 i l us ->
  split_loop_segs fuel isidx merge ms sz now i l next us upd = Done (l', next', us', upd') ->
  sok isidx name P l' next' /\ (exists k, moved l0 k l' us') /\ elems_of l' = elems_of l /\
  (upd' = false -> upd = false /\ l' = l /\ us' = us).
Proof.
  intros Hnow. induction fuel as [|f IH]; intros i l next us upd l' next' us' upd' Hnx HK HJ E; cbn [split_loop_segs] in E.
  { destruct (nth_error l i); [discriminate|]. injection E as <- <- <- <-.
    split; [exact HK|]. split; [eauto|]. split; [reflexivity|]. auto. }
  destruct (nth_error l i) as [s|] eqn:Hs.
  2: { injection E as <- <- <- <-. split; [exact HK|]. split; [eauto|]. split; [reflexivity|]. auto. }
  assert (Hskip : split_loop_segs f isidx merge ms sz now (S i) l next us upd = Done (l', next', us', upd') ->
     sok isidx name P l' next' /\ (exists k, moved l0 k l' us') /\ elems_of l' = elems_of l /\
     (upd' = false -> upd = false /\ l' = l /\ us' = us)).
  { intros E1. eapply IH; [exact Hnx|exact HK| |exact E1]. eapply moved_weaken; [exact HJ|lia]. }
  pose proof (score_ok_distinct _ _ (k_s _ _ _ _ _ HK)) as HD.
  destruct (Nat.ltb (sg_n s) sz).
  - destruct (if merge then i else O) as [|j] eqn:Ej; [auto|].
    destruct (nth_error l (i - 1)) as [p|] eqn:Hp; [|auto].
    destruct (Nat.ltb ms (sg_n s + sg_n p)); [auto|].
    assert (Hi : i = S j) by (destruct merge; [exact Ej|discriminate]).
    rewrite Hi in Hp, Hs. replace (S j - 1)%nat with j in Hp by lia.
    apply nth_split_eq in Hp as (a & c & El & La). 
    destruct c as [|s' b].
    { rewrite El in Hs. rewrite nth_error_app2 in Hs by lia. replace (S j - length a)%nat with 1%nat in Hs by lia. discriminate. }
    assert (s' = s).
    { rewrite El in Hs. rewrite nth_error_app2 in Hs by lia. replace (S j - length a)%nat with 1%nat in Hs by lia. cbn in Hs. congruence. }
    subst s'. destruct (merge_segs now p s) as (m & ch) eqn:Em.
    assert (Em1 : m = fst (merge_segs now p s)) by (rewrite Em; reflexivity).
    assert (Em2 : ch = snd (merge_segs now p s)) by (rewrite Em; reflexivity).
    assert (El' : del_nth i (upd_nth (i - 1) (fun _ => m) l) = a ++ m :: b).
    { rewrite El, Hi. replace (S j - 1)%nat with (length a) by lia. rewrite upd_nth_mid.
      replace (S j) with (length (a ++ [m])) by (rewrite app_length; cbn; lia).
      replace (a ++ m :: s :: b) with ((a ++ [m]) ++ s :: b) by (rewrite <- app_assoc; reflexivity).
      rewrite del_nth_mid, <- app_assoc. reflexivity. }
    rewrite El' in E. rewrite El in HK, HD, HJ. destruct (sok_merge _ _ _ _ _ _ _ _ now Hnow HK) as (HK2 & HE2).
    rewrite Em1, Em2 in E.
    edestruct IH as (R1 & R2 & R3 & R4); [exact Hnx|exact HK2| |exact E|].
    + rewrite Hi, <- La. apply moved_merge; [|exact HD]. rewrite Hi, <- La in HJ. exact HJ.
    + split; [exact R1|]. split; [exact R2|]. split; [rewrite R3, El; exact HE2|]. intros C. destruct (R4 C); discriminate.
  - assert (Hself : upd_nth i set_n l = l).
    { eapply upd_nth_self; [exact Hs|]. eapply set_n_same. pose proof (k_meta _ _ _ _ _ HK) as HM. rewrite Forall_forall in HM.
      apply HM. eapply nth_error_In; eauto. }
    rewrite Hself in E. apply nth_split_eq in Hs as (a & b & El & La).
    destruct (split_seg isidx next now s) as [((s1 & s2) & ch)|] eqn:Es.
    + rewrite El in HK, HD, HJ.
      destruct (sok_split _ _ _ _ _ _ _ _ _ _ _ Hnow Hnx HK Es) as (HK2 & HE2 & Ee & Ec & I1 & I2).
      assert (El' : ins_nth (S i) (touch now s2) (upd_nth i (fun _ => touch now s1) l) = a ++ touch now s1 :: touch now s2 :: b).
      { rewrite El, <- La, upd_nth_mid.
        replace (S (length a)) with (length (a ++ [touch now s1])) by (rewrite app_length; cbn; lia).
        replace (a ++ touch now s1 :: b) with ((a ++ [touch now s1]) ++ b) by (rewrite <- app_assoc; reflexivity).
        rewrite ins_nth_mid, <- app_assoc. reflexivity. }
      rewrite El', Ec in E.
      edestruct IH as (R1 & R2 & R3 & R4); [|exact HK2| |exact E|].
      * lia.
      * apply moved_split with (s := s); auto.
      * split; [exact R1|]. split; [exact R2|]. split; [rewrite R3, El; exact HE2|]. intros C. destruct (R4 C); discriminate.
    + destruct isidx; [|auto].
      edestruct IH as (R1 & R2 & R3 & R4); [exact Hnx|exact HK| |exact E|].
      * eapply moved_weaken; [exact HJ|lia].
      * split; [exact R1|]. split; [exact R2|]. split; [exact R3|]. intros C. destruct (R4 C); discriminate.
Qed.
