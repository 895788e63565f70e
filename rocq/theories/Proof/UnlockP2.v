(** Proofs for Spec/UnlockSpec.v: new collections, loading and saving. *)
From Coq Require Import List Bool Arith Lia Permutation.
From Verif.Model Require Import Unlock.
From Verif.Spec Require Import UnlockSpec.
From Verif.Proof Require Import UnlockP.
Import ListNotations.
Open Scope nat_scope.

(** like [K], but collections and the list may change *)
Record G (t : option site) (h : list (lk * bool)) (s s' : st) : Prop := {
  g_inv : INV s'; g_held : Permutation (held s') h; g_fr : fr t s s'; g_fu : fu s s'
}.
(** not even the functions in [unlock] are the same *)
Record J (t : option site) (h : list (lk * bool)) (s s' : st) : Prop := {
  j_inv : INV s'; j_held : Permutation (held s') h; j_fr : fr t s s'
}.
Lemma K_G t h s s' : K t h s s' -> G t h s s'. Proof. intros []; split; auto. Qed.
Lemma G_J t h s s' : G t h s s' -> J t h s s'. Proof. intros []; split; auto. Qed.
Lemma G_next t h s s' : G t h s s' -> next s <= next s'. Proof. intros [? ? []]; auto. Qed.
Lemma J_next t h s s' : J t h s s' -> next s <= next s'. Proof. intros [? ? []]; auto. Qed.
Lemma G_trans t h h' s s1 s2 : G None h s s1 -> G t h' s1 s2 -> G t h' s s2.
Proof.
  intros [] []. pose proof (f_next _ _ _ g_fr0). split; auto.
  - eapply fr_trans; eauto.
  - eapply fu_trans; eauto.
Qed.
Lemma J_trans t h h' s s1 s2 : J None h s s1 -> J t h' s1 s2 -> J t h' s s2.
Proof. intros [] []. split; auto. eapply fr_trans; eauto. Qed.
Lemma J_trans' t h h' s s1 s2 : J (Some t) h s s1 -> J None h' s1 s2 -> J (Some t) h' s s2.
Proof. intros [] []. split; auto. eapply fr_trans'; eauto. Qed.
Lemma G_refl h s : INV s -> Permutation (held s) h -> G None h s s.
Proof. intros I P. split; auto. apply fr_refl. red; auto. Qed.
Lemma G_perm t h h' s s' : Permutation h h' -> G t h s s' -> G t h' s s'.
Proof. intros P []; split; auto. rewrite g_held0; auto. Qed.
Lemma J_perm t h h' s s' : Permutation h h' -> J t h s s' -> J t h' s s'.
Proof. intros P []; split; auto. rewrite j_held0; auto. Qed.
Lemma GK_trans t h h' s s1 s2 : G None h s s1 -> K t h' s1 s2 -> G t h' s s2.
Proof. intros A B. eapply G_trans; [eauto|]. apply K_G; auto. Qed.
Lemma KG_trans t h h' s s1 s2 : K None h s s1 -> G t h' s1 s2 -> G t h' s s2.
Proof. intros A B. eapply G_trans; [|eauto]. apply K_G in A; eauto. Qed.

Ltac nxt := cbn [known]; auto; repeat match goal with
  | X : K _ _ ?a ?b |- _ => lazymatch goal with H : next a <= next b |- _ => fail | _ => pose proof (K_next _ _ _ _ X) end
  | X : G _ _ ?a ?b |- _ => lazymatch goal with H : next a <= next b |- _ => fail | _ => pose proof (G_next _ _ _ _ X) end
  | X : J _ _ ?a ?b |- _ => lazymatch goal with H : next a <= next b |- _ => fail | _ => pose proof (J_next _ _ _ _ X) end
  end; lia.
Ltac kp :=
  match goal with
  | |- keep _ _ _ (bind (get _) _) => apply keep_get_bind; cbv beta
  | |- keep _ _ _ (bind (need _) _) => apply keep_need_bind; [auto; congruence | intros]
  | |- keep _ _ _ (bind _ _) => apply keep_bind; [|intros]
  | |- keep _ _ _ (ret _) => apply keep_ret
  | |- keep _ _ _ raise => apply keep_raise; auto
  | |- keep _ _ _ pick => apply keep_pick
  | |- keep _ _ _ pickb => apply keep_pickb
  | |- keep _ _ _ (need _) => apply keep_need; auto
  | |- keep _ _ _ (get _) => apply keep_get
  | |- keep _ _ _ (io _) => apply keep_io; reflexivity
  | |- keep _ _ _ (touch _ _) => apply keep_touch; [nxt | auto; fail]
  | |- keep _ _ _ (if _ then _ else _) => apply keep_if
  end.
(** a part that keeps the locks and does not panic *)
Lemma wp_keep {A} h s (m : M A) (Q : res A -> st -> Prop) : keep false h s m -> INV s -> Permutation (held s) h ->
  (forall a s', K None h s s' -> Q (Ret a) s') -> wp m s Q.
Proof.
  intros H I P R. eapply wp_mono; [apply H; auto|]. intros r s' ([[? _] | [a ->]] & X); [discriminate | auto].
Qed.
Lemma wp_keept {A} h s (m : M A) (Q : res A -> st -> Prop) : keep true h s m -> INV s -> Permutation (held s) h ->
  (forall a s', K None h s s' -> Q (Ret a) s') -> (forall s', K None h s s' -> Q Raise s') -> wp m s Q.
Proof.
  intros H I P R R'. eapply wp_mono; [apply H; auto|]. intros r s' ([[_ ->] | [a ->]] & X); auto.
Qed.
Lemma wp_get {A} (f : st -> A) s (Q : res A -> st -> Prop) : Q (Ret (f s)) s -> wp (get f) s Q.
Proof. auto. Qed.
Lemma wp_put f s (Q : res unit -> st -> Prop) : Q (Ret tt) (f s) -> wp (put f) s Q.
Proof. auto. Qed.

(** ** changing a collection *)
Lemma upd_eq {A} (f : nat -> A) i v : upd f i v i = v.
Proof. unfold upd. rewrite Nat.eqb_refl; auto. Qed.
Lemma upd_neq {A} (f : nat -> A) i v j : j <> i -> upd f i v j = f j.
Proof. unfold upd. intros. apply Nat.eqb_neq in H. rewrite H; auto. Qed.
Lemma set_coll_inv s c v : INV s -> NoDup v -> (forall i, In i v -> i < next s) ->
  (forall i c', c' <> c -> In i v -> ~ In i (coll s c')) -> INV (set_coll_of s c v).
Proof.
  intros [] N L D. split; cbn; auto.
  - intros c'. destruct (Nat.eq_dec c' c) as [-> | E]; [rewrite upd_eq; auto | rewrite upd_neq; auto].
  - intros c' i. destruct (Nat.eq_dec c' c) as [-> | E]; [rewrite upd_eq; auto | rewrite upd_neq; eauto].
  - intros c1 c2 i. destruct (Nat.eq_dec c1 c) as [-> | E1], (Nat.eq_dec c2 c) as [-> | E2]; rewrite ?upd_eq, ?upd_neq by auto; auto.
    + intros A B. destruct (D i c2 E2 A B).
    + intros A B. destruct (D i c1 E1 B A).
    + eauto.
Qed.
Lemma set_coll_G t h s0 s c v : G t h s0 s -> INV (set_coll_of s c v) -> G t h s0 (set_coll_of s c v).
Proof. intros [? ? []] I. split; auto. split; auto. Qed.
Lemma set_coll_K t h s0 s c v : K t h s0 s -> next s0 <= c -> INV (set_coll_of s c v) -> K t h s0 (set_coll_of s c v).
Proof.
  intros [? ? [] ? ? ?] L I. split; auto.
  - split; auto.
  - intros c' L'. cbn. rewrite upd_neq by lia. auto.
Qed.
Lemma set_unl_K t h s0 s o v : K t h s0 s -> next s0 <= o -> K t h s0 (set_unl_of s o v).
Proof.
  intros [[] ? [] ? ? ?] L. split; auto.
  - split; auto.
  - split; auto.
  - intros c' L'. cbn. rewrite upd_neq by lia. auto.
Qed.
Lemma ins_inv s c j l1 l2 : INV s -> j < next s -> (forall c', ~ In j (coll s c')) -> l1 ++ l2 = coll s c -> INV (set_coll_of s c (l1 ++ j :: l2)).
Proof.
  intros I L N E. apply set_coll_inv; auto.
  - eapply Permutation_NoDup; [apply Permutation_middle|]. rewrite E. constructor; [auto | apply I].
  - intros i J. eapply Permutation_in in J; [|apply Permutation_sym, Permutation_middle]. rewrite E in J. destruct J as [<- | J]; auto.
    eapply i_known; eauto.
  - intros i c' D J J'. eapply Permutation_in in J; [|apply Permutation_sym, Permutation_middle]. rewrite E in J.
    destruct J as [<- | J]; [eapply N; eauto|]. apply D. eapply i_own; eauto.
Qed.
Lemma wp_new_coll h s (Q : res _ -> st -> Prop) : INV s -> Permutation (held s) h ->
  (forall c s', K None h s s' -> c = next s -> c < next s' -> coll s' c = [] -> Q (Ret c) s') -> wp new_coll s Q.
Proof.
  intros I P H. apply wp_bind. eapply wp_fresh; eauto. intros c s1 X -> E. cbn [cont].
  apply wp_bind, wp_put. cbn [cont]. apply wp_ret. apply H; auto.
  - apply set_coll_K; auto. apply set_coll_inv; [apply X | constructor | intros ? [] | intros ? ? ? []].
  - cbn. lia.
  - cbn. apply upd_eq.
Qed.
Definition colls {A} (s : st) (_ : res A) (s' : st) : Prop := coll s' = coll s.
Lemma colls_lock k w s : wp (lock k w) s (colls s).
Proof. unfold wp, colls, lock. destruct (avail k w (held s)); reflexivity. Qed.
Lemma colls_unlock k w s : wp (unlock k w) s (colls s).
Proof. unfold wp, colls, unlock. destruct (drop k w (held s)); reflexivity. Qed.
Lemma colls_touch k w s : wp (touch k w) s (colls s).
Proof.
  apply wp_bind. eapply wp_mono; [apply colls_lock|]. intros [[]| | |] s' E; cbn; auto.
  eapply wp_mono; [apply colls_unlock|]. intros r s2 E2. red. red in E, E2. congruence.
Qed.
Lemma colls_fresh s : wp fresh s (colls s).
Proof. reflexivity. Qed.

Lemma wp_colls {A} (m : M A) s (Q : res A -> st -> Prop) :
  wp m s (colls s) -> wp m s (fun r s' => coll s' = coll s -> Q r s') -> wp m s Q.
Proof. unfold wp; auto. Qed.

(** locking a new segment before it is put into the collection *)
Lemma wp_new_locked {A} h s c (f : nat -> M A) (Q : res A -> st -> Prop) : INV s -> Permutation (held s) h -> c < next s ->
  avail (KStats c) true h = true ->
  (forall i s', K None ((KSeg i, true) :: h) s s' -> i = next s -> i < next s' -> coll s' = coll s -> wp (f i) s' Q) ->
  wp (i <- fresh;; lock (KSeg i) true;; touch (KStats c) true;; f i) s Q.
Proof.
  intros I P L A' H. apply wp_bind. apply wp_colls; [apply colls_fresh|]. eapply wp_fresh; eauto. intros i s1 X1 -> E E1. cbn [cont].
  apply wp_bind. apply wp_colls; [apply colls_lock|]. eapply wp_lock; [apply X1 | apply X1 | nxt | |].
  { apply avail_none. intros w J. eapply Permutation_in in J; [|apply Permutation_sym, P].
    apply (i_seg _ I) in J. lia. }
  intros s2 X2 E2. cbn [cont].
  apply wp_bind. apply wp_colls; [apply colls_touch|].
  eapply wp_touch; [apply X2 | apply X2 | nxt | apply avail_other; [discriminate | auto] |]. intros s3 X3 E3. cbn [cont].
  apply H; [eapply K_trans; [exact X1 | eapply K_trans; eauto] | auto | nxt | congruence].
Qed.
Lemma wp_new_seg h s0 s c (Q : res _ -> st -> Prop) : K None h s0 s -> next s0 <= c -> c < next s -> avail (KStats c) true h = true ->
  (forall i s', K None ((KSeg i, true) :: h) s0 s' -> next s <= next s' -> Q (Ret i) s') -> wp (new_seg c) s Q.
Proof.
  intros X L L' A H. eapply wp_new_locked; [apply X | apply X | auto | auto |]. intros i s1 X1 -> E1 EC.
  apply wp_bind, wp_put. cbn [cont]. apply wp_ret.
  assert (Y := K_trans _ _ _ _ _ _ X X1). assert (I := k_inv _ _ _ _ X). assert (I1 := k_inv _ _ _ _ X1). apply H; [|cbn; nxt].
  assert (NI : forall c', ~ In (next s) (coll s1 c')) by (intros c' J; rewrite EC in J; apply (i_known _ I) in J; lia).
  apply set_coll_K; auto. apply ins_inv; auto. apply app_nil_r.
Qed.
Lemma times_S n f : times (S n) f = bind f (fun ok => if ok : bool then times n f else ret false).
Proof. reflexivity. Qed.
Lemma wp_add_segs h s0 c x n : forall s (Q : res _ -> st -> Prop), K None h s0 s -> next s0 <= c -> c < next s -> plain h ->
  (forall ok s', K (if negb ok && costly x then Some x else None) h s0 s' -> c < next s' -> Q (Ret ok) s') ->
  wp (times n (i <- new_seg c;; replace_seg c i x)) s Q.
Proof.
  induction n as [|n IH]; intros s Q X L L' N H.
  - apply wp_ret. apply H; auto.
  - rewrite times_S. apply wp_bind, wp_bind. eapply wp_new_seg; eauto. intros i s1 X1 E1. cbn [cont].
    eapply wp_replace_seg; [apply X1 | apply X1 | reflexivity | lia | auto |]. intros ok s2 X2. cbn [cont].
    destruct ok; cbn in X2.
    + apply IH; auto; [eapply K_trans; eauto | nxt].
    + apply wp_ret. apply (H false). cbn. eapply K_trans; eauto. nxt.
Qed.
Lemma wp_nse h x s (Q : res _ -> st -> Prop) : INV s -> Permutation (held s) h -> plain h ->
  (forall c s', K None h s s' -> next s <= c -> c < next s' -> Q (Ret (Some c)) s') ->
  (forall s', K (if costly x then Some x else None) h s s' -> Q (Ret None) s') -> wp (new_segments_elements x) s Q.
Proof.
  intros I P N H1 H2.
  enough (wp (bind new_coll (fun c => n <- pick;; ok <- times (S n) (i <- new_seg c;; replace_seg c i x);;
                                      ret (if ok : bool then Some c else None))) s Q) as W.
  { unfold new_segments_elements. unfold new_coll in W. revert W. unfold wp, bind. cbn. auto. }
  apply wp_bind. eapply wp_new_coll; eauto. intros c s1 X1 -> L1 _. cbn [cont].
  apply wp_bind. eapply wp_pick; [apply X1 | apply X1 |]. intros n s2 X2. cbn [cont].
  apply wp_bind. eapply wp_add_segs; [exact (K_trans _ _ _ _ _ _ X1 X2) | auto | nxt | auto |]. intros ok s3 X3 L3. cbn [cont]. apply wp_ret.
  destruct ok; cbn in X3; auto.
Qed.
Lemma wp_fresh_n h n : forall s (Q : res _ -> st -> Prop), INV s -> Permutation (held s) h ->
  (forall l s', K None h s s' -> coll s' = coll s -> NoDup l -> (forall i, In i l -> next s <= i < next s') -> Q (Ret l) s') ->
  wp (fresh_n n) s Q.
Proof.
  induction n as [|n IH]; intros s Q I P H.
  - apply wp_ret. apply H; [apply K_refl; auto | auto | constructor | intros ? []].
  - cbn. apply wp_bind. apply wp_colls; [apply colls_fresh|]. eapply wp_fresh; eauto. intros i s1 X1 -> E C1. cbn [cont].
    apply wp_bind. apply IH; [apply X1 | apply X1|]. intros l s2 X2 C2 D B. cbn [cont]. apply wp_ret. apply H.
    + eapply K_trans; eauto.
    + congruence.
    + constructor; auto. intros J. apply B in J. lia.
    + intros j [<- | J]; [nxt|]. apply B in J. lia.
Qed.
(** a failed read of metadata *)
Definition unread (s s' : st) : Prop := exists new, acc s' = new ++ acc s /\ (In (GetScores, false) new \/ In (GetIndex, false) new).
Lemma unread_more t s s1 s2 : unread s s1 -> fr t s1 s2 -> unread s s2.
Proof.
  intros (n & E & H) [_ _ _ (n' & E' & _)]. exists (n' ++ n). split; [rewrite E', E, app_assoc; auto|].
  rewrite !in_app_iff. tauto.
Qed.
Lemma unread_after t s s1 s2 : fr t s s1 -> unread s1 s2 -> unread s s2.
Proof.
  intros [_ _ _ (n' & E' & _)] (n & E & H). exists (n ++ n'). split; [rewrite E, E', app_assoc; auto|].
  rewrite !in_app_iff. tauto.
Qed.
Lemma wp_load_coll h x s (Q : res _ -> st -> Prop) : INV s -> Permutation (held s) h -> x = GetScores \/ x = GetIndex ->
  (forall c s', K None h s s' -> next s <= c -> c < next s' -> Q (Ret (Some c)) s') ->
  (forall s', K None h s s' -> unread s s' -> Q (Ret None) s') -> wp (load_coll x) s Q.
Proof.
  intros I P C H1 H2. assert (C' : costly x = false) by (destruct C as [-> | ->]; auto).
  apply wp_bind. eapply wp_io; eauto. intros ok s1 X1 E1. rewrite C', andb_false_r in X1. cbn [cont]. destruct ok.
  - apply wp_bind. eapply wp_pick; [apply X1 | apply X1 |]. intros n s2 X2. cbn [cont].
    assert (Y2 := K_trans _ _ _ _ _ _ X1 X2). apply wp_bind. eapply wp_fresh; [apply X2 | apply X2 |]. intros c s3 X3 -> E3. cbn [cont].
    assert (Y3 := K_trans _ _ _ _ _ _ Y2 X3). apply wp_bind. eapply wp_fresh_n; [apply X3 | apply X3 |]. intros l s4 X4 C4 D B. cbn [cont].
    assert (Y4 := K_trans _ _ _ _ _ _ Y3 X4). apply wp_bind, wp_put. cbn [cont]. apply wp_ret. apply H1.
    + apply set_coll_K; auto; [nxt|]. apply set_coll_inv; auto; [apply X4 | intros i J; apply B in J; lia|].
      intros i c' _ J J'. rewrite C4 in J'. apply (i_known _ (k_inv _ _ _ _ X3)) in J'. apply B in J. lia.
    + nxt.
    + cbn. nxt.
  - apply wp_ret. apply H2; auto. exists [(x, false)]. split; auto. destruct C as [-> | ->]; cbn; auto.
Qed.
Lemma keep_save_coll p h s c x : c < next s -> plain h -> costly x = false -> keep p h s (save_coll c x).
Proof. intros L N C. unfold save_coll. kp; [kp|]. apply keep_io; auto. Qed.
Lemma wp_delete_coll h c s (Q : res _ -> st -> Prop) : INV s -> Permutation (held s) h ->
  (forall b s', G None h s s' -> fl s s' -> Q (Ret b) s') -> wp (delete_coll c) s Q.
Proof.
  intros I P H. apply wp_bind, wp_get. cbn [cont]. apply wp_bind.
  eapply (wp_keep h). { apply keep_all_of. intros. kp. } all: auto.
  intros b s1 X1. cbn [cont]. apply wp_bind, wp_put. cbn [cont].
  assert (I2 : INV (set_coll_of s1 c [])) by (apply set_coll_inv; [apply X1 | constructor | intros ? [] | intros ? ? ? []]).
  eapply (wp_keep h). { kp. } all: auto. { apply X1. }
  intros b' s2 X2. apply H.
  - exact (GK_trans _ _ _ _ _ _ (set_coll_G _ _ _ _ c [] (K_G _ _ _ _ X1) I2) X2).
  - eapply fl_trans; [apply X1 | apply X2].
Qed.

(** ** saving *)
Definition gok (g : segs) (s : st) : Prop :=
  g_obj g < next s /\
  match g_scores g, g_index g with Some c, Some x => c < next s /\ x < next s /\ c <> x | None, None => True | _, _ => False end.
Definition isSome {A} (o : option A) : bool := match o with Some _ => true | None => false end.
Definition gmatch (g : segs) (s : st) : Prop :=
  l_sc s = g_scores g /\ l_ix s = g_index g /\ scset s = isSome (g_scores g) /\ ixset s = isSome (g_index g).
Lemma gok_mono g s s' : gok g s -> next s <= next s' -> gok g s'.
Proof. unfold gok. destruct (g_scores g), (g_index g); intuition lia. Qed.
Lemma gmatch_fl g s s' : gmatch g s -> fl s s' -> gmatch g s'.
Proof. unfold gmatch, fl. intuition congruence. Qed.
Lemma wp_update_segments h g s (Q : res _ -> st -> Prop) : INV s -> Permutation (held s) h -> gok g s -> g_ro g = false ->
  (forall s', G None h s s' -> next s' = next s -> coll s' = coll s -> gmatch g s' -> Q (Ret tt) s') -> wp (update_segments g) s Q.
Proof.
  intros I P (O & G') R H. unfold update_segments. rewrite R. apply wp_put. apply H; auto.
  - split; auto.
    + destruct I. split; auto. cbn. destruct (g_scores g), (g_index g); auto; intuition.
    + split; auto. exists []; auto.
    + red; auto.
  - red; cbn; auto.
Qed.
Lemma update_segments_same g s : g_ro g = true \/ gmatch g s -> update_segments g s = (Ret tt, s).
Proof.
  intros H. unfold update_segments. destruct (g_ro g); auto. destruct H as [H | (A & B & C & D)]; [discriminate|].
  unfold put, set_list. f_equal. unfold isSome in *. destruct s; cbn in *. subst. reflexivity.
Qed.
Lemma wp_save_colls h x g s (Q : res _ -> st -> Prop) : INV s -> Permutation (held s) h -> gok g s -> plain h -> avail KList false h = true ->
  (forall ok s', K (if negb ok && costly x then Some x else None) h s s' -> Q (Ret ok) s') ->
  wp (touch KList false;; ok <- match g_scores g with Some c => save_coll c x | None => ret true end;;
      if ok : bool then match g_index g with Some c => save_coll c x | None => ret true end else ret false) s Q.
Proof.
  intros I P (O & G') N A H. apply wp_bind. eapply wp_touch; eauto; [exact Logic.I|]. intros s1 X1. cbn [cont].
  apply wp_bind. destruct (g_scores g) as [c|], (g_index g) as [y|]; try contradiction.
  - destruct G' as (L1 & L2 & _).
    apply wp_bind. eapply wp_touch; [apply X1 | apply X1 | nxt | auto |]. intros s2 X2. cbn [cont].
    eapply wp_io; [apply X2 | apply X2 |]. intros ok s3 X3 _. cbn [cont]. destruct ok; cbn in X3.
    + apply wp_bind. eapply wp_touch; [apply X3 | apply X3 | nxt | auto |]. intros s4 X4. cbn [cont].
      eapply wp_io; [apply X4 | apply X4 |]. intros ok s5 X5 _. apply H.
      eapply K_trans; [exact X1|]. eapply K_trans; [exact X2|]. eapply K_trans; [exact X3|]. eapply K_trans; [exact X4|]. exact X5.
    + apply wp_ret. apply H. cbn. eapply K_trans; [exact X1|]. eapply K_trans; [exact X2|]. exact X3.
  - apply wp_ret. cbn. apply wp_ret. apply H. cbn. auto.
Qed.
Lemma wp_save_segments h x g s (Q : res _ -> st -> Prop) : INV s -> Permutation (held s) h -> gok g s -> g_ro g = false -> plain h ->
  avail KList false h = true ->
  (forall ok s', G (if negb ok && costly x then Some x else None) h s s' -> gmatch g s' -> Q (Ret ok) s') ->
  wp (save_segments x g) s Q.
Proof.
  intros I P O R N A H. apply wp_bind. eapply wp_update_segments; eauto. intros s1 X1 E1 C1 M1. cbn [cont].
  eapply wp_save_colls; [apply X1 | apply X1 | eapply gok_mono; eauto; lia | auto | auto|]. intros ok s2 X2. apply H.
  - eapply GK_trans; eauto.
  - eapply gmatch_fl; eauto. apply X2.
Qed.
Lemma keep_save_segments p h g s : gok g s -> g_ro g = true \/ gmatch g s -> plain h -> avail KList false h = true ->
  keep p h s (save_segments SetMeta g).
Proof.
  intros O M N A I P. unfold save_segments. apply wp_bind. unfold wp at 1. rewrite update_segments_same by auto. cbn [fst snd cont].
  eapply wp_save_colls; eauto. intros ok s2 X2. cbn in X2. rewrite andb_false_r in X2. split; [right; eauto | auto].
Qed.

(** ** reindexing *)
Lemma wp_reindex h who g c old s (Q : res _ -> st -> Prop) :
  INV s -> Permutation (held s) h -> gok g s -> g_ro g = false -> g_scores g = Some c -> g_index g = Some old -> plain h ->
  avail KList false h = true ->
  (forall x s', G None h s s' -> next s <= x -> x < next s' -> gmatch (mkG (Some c) (Some x) false (g_upd g) (g_obj g)) s' ->
      g_upd g = true -> Q (Ret (true, mkG (Some c) (Some x) false (g_upd g) (g_obj g))) s') ->
  (forall s', K None h s s' -> Q (Ret (false, g)) s') ->
  (forall x s', G (if costly (SetReindexed who) then Some (SetReindexed who) else None) h s s' -> g_upd g = true ->
      let g' := mkG (Some c) (Some x) false (g_upd g) (g_obj g) in wp (unlock_segs g';; ret (false, g')) s' Q) ->
  wp (reindex who g) s Q.
Proof.
  intros I P O R S X N A H1 H2 H3. unfold reindex. rewrite R. destruct (g_upd g) eqn:U; cbn [negb].
  2: { apply wp_ret. apply H2. apply K_refl; auto. }
  destruct O as (O & O'). rewrite S, X in O'. destruct O' as (L1 & L2 & D).
  apply wp_bind. eapply wp_touch; eauto; [exact Logic.I|]. intros s1 X1. cbn [cont].
  rewrite S. cbn [need]. apply wp_bind, wp_ret. cbn [cont].
  apply wp_bind. eapply (wp_keep h). { apply keep_read_all; [nxt | auto]. } 1,2: apply X1. intros ok s2 X2. cbn [cont].
  assert (Y2 := K_trans _ _ _ _ _ _ X1 X2). destruct ok; [|apply wp_ret; auto].
  apply wp_bind. eapply wp_nse; [apply X2 | apply X2 | auto | |].
  2: { intros s3 X3. cbn [cont costly] in *. apply wp_ret. apply H2. eapply K_trans; eauto. }
  intros x s3 X3 L3 L3'. cbn [cont]. assert (Y3 := K_trans _ _ _ _ _ _ Y2 X3).
  apply wp_bind. eapply (wp_keep h). { apply keep_save_coll; auto. } 1,2: apply X3. intros ok s4 X4. cbn [cont].
  assert (Y4 := K_trans _ _ _ _ _ _ Y3 X4). destruct ok; [|apply wp_ret; auto].
  rewrite X. cbn [need]. apply wp_bind, wp_ret. cbn [cont].
  apply wp_bind. eapply wp_delete_coll; [apply X4 | apply X4 |]. intros _b s5 X5 _. cbn [cont].
  assert (Y5 := KG_trans _ _ _ _ _ _ Y4 X5).
  apply wp_bind. eapply wp_save_segments; [apply X5 | apply X5 | | reflexivity | auto | auto |].
  { split; cbn; [nxt | repeat split; nxt]. }
  intros ok s6 X6 M6. cbn [cont]. assert (Y6 := G_trans _ _ _ _ _ _ Y5 X6). destruct ok; cbn [negb andb] in Y6.
  - apply wp_ret. apply H1; auto; nxt.
  - apply H3; auto.
Qed.

