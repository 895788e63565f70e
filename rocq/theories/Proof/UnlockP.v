(** Proofs for Spec/UnlockSpec.v: the parts of a call that give back what they lock. *)
From Coq Require Import List Bool Arith Lia Permutation.
From Verif.Model Require Import Unlock.
From Verif.Spec Require Import UnlockSpec.
Import ListNotations.
Open Scope nat_scope.

Definition wp {A} (m : M A) (s : st) (Q : res A -> st -> Prop) : Prop := Q (fst (m s)) (snd (m s)).
Lemma wp_mono {A} (m : M A) s (Q Q' : res A -> st -> Prop) : wp m s Q -> (forall r s', Q r s' -> Q' r s') -> wp m s Q'.
Proof. unfold wp; auto. Qed.
Lemma wp_ret {A} (a : A) s (Q : res A -> st -> Prop) : Q (Ret a) s -> wp (ret a) s Q.
Proof. auto. Qed.
Definition cont {A B} (f : A -> M B) (Q : res B -> st -> Prop) (r : res A) (s : st) : Prop :=
  match r with Ret a => wp (f a) s Q | Raise => Q Raise s | Dead => Q Dead s | Stuck => Q Stuck s end.
Lemma wp_bind {A B} (m : M A) (f : A -> M B) s Q : wp m s (cont f Q) -> wp (bind m f) s Q.
Proof. unfold wp, bind, cont. destruct (m s) as [[a| | |] s']; cbn; auto. Qed.
Lemma wp_deferred {A} d (m : M A) s Q :
  wp m s (fun r s' => match r with
                      | Ret a => wp d s' (cont (fun _ => ret a) Q)
                      | Raise => wp d s' (cont (fun _ => raise) Q)
                      | Dead => Q Dead s' | Stuck => Q Stuck s' end) ->
  wp (deferred d m) s Q.
Proof.
  unfold wp, deferred, bind, cont. destruct (m s) as [[a| | |] s']; cbn; auto; destruct (d s') as [[u| | |] s'']; cbn; auto.
Qed.

(** ** locks *)
Lemma lk_eqb_eq a b : lk_eqb a b = true <-> a = b.
Proof. destruct a, b; cbn; split; intros H; try discriminate; try reflexivity; try (apply Nat.eqb_eq in H; congruence); injection H; intros ->; apply Nat.eqb_refl. Qed.
Lemma lk_eqb_refl a : lk_eqb a a = true.
Proof. apply lk_eqb_eq; reflexivity. Qed.
Lemma avail_perm k w h h' : Permutation h h' -> avail k w h = avail k w h'.
Proof.
  unfold avail. induction 1; cbn; auto.
  - rewrite IHPermutation; auto.
  - rewrite !andb_assoc. f_equal. apply andb_comm.
  - congruence.
Qed.
Lemma avail_none k w h : (forall w', ~ In (k, w') h) -> avail k w h = true.
Proof.
  intros H. unfold avail. apply forallb_forall. intros [k' w'] I. cbn.
  destruct (lk_eqb k' k) eqn:E; auto. apply lk_eqb_eq in E; subst. destruct (H w' I).
Qed.
Lemma avail_cons k w x h : avail k w (x :: h) = negb (lk_eqb (fst x) k && (w || snd x)) && avail k w h.
Proof. reflexivity. Qed.
Lemma avail_read k k' h : avail k false h = true -> avail k false ((k', false) :: h) = true.
Proof. intros H. rewrite avail_cons, H. cbn. rewrite andb_false_r; reflexivity. Qed.
Lemma avail_other k k' w w' h : k' <> k -> avail k w h = true -> avail k w ((k', w') :: h) = true.
Proof.
  intros N H. rewrite avail_cons, H. cbn. destruct (lk_eqb k' k) eqn:E; auto. apply lk_eqb_eq in E; contradiction.
Qed.
Lemma drop_perm k w h h' : Permutation h ((k, w) :: h') -> exists r, drop k w h = Some r /\ Permutation r h'.
Proof.
  intros P. assert (I : In (k, w) h) by (eapply Permutation_in; [apply Permutation_sym, P | left; reflexivity]).
  assert (D : exists r, drop k w h = Some r /\ Permutation h ((k, w) :: r)).
  { clear P h'. induction h as [|x h IH]; [destruct I|]. cbn.
    destruct (lk_eqb (fst x) k && Bool.eqb (snd x) w) eqn:E.
    - apply andb_true_iff in E as [E1 E2]. apply lk_eqb_eq in E1. apply eqb_prop in E2. destruct x; cbn in *; subst. eauto.
    - destruct I as [-> | I].
      + cbn in E. rewrite lk_eqb_refl, eqb_reflx in E. discriminate.
      + destruct (IH I) as (r & -> & P). exists (x :: r). split; auto. rewrite P. apply perm_swap. }
  destruct D as (r & D & P'). exists r. split; auto. eapply Permutation_cons_inv. rewrite <- P'. exact P.
Qed.

(** ** what holds of every state of a call *)
Record INV (s : st) : Prop := {
  i_nodup : forall c, NoDup (coll s c);
  i_known : forall c i, In i (coll s c) -> i < next s;
  i_own : forall c c' i, In i (coll s c) -> In i (coll s c') -> c = c';
  i_seg : forall i w, In (KSeg i, w) (held s) -> i < next s;
  i_stat : forall c w, In (KStats c, w) (held s) -> c < next s;
  i_list : match l_sc s, l_ix s with
           | Some c, Some x => c < next s /\ x < next s /\ c <> x /\ scset s = true /\ ixset s = true
           | None, None => scset s = ixset s
           | _, _ => False
           end
}.
(** only what is told happens: [t] the access that cost a lock *)
Record fr (t : option site) (s s' : st) : Prop := {
  f_next : next s <= next s';
  f_works : works s' = works s;
  f_picks : picks s' = picks s;
  f_acc : exists new, acc s' = new ++ acc s /\ lost new = t
}.
Definition fu (s s' : st) : Prop := forall o, o < next s -> unl s' o = unl s o.
Definition fc (s s' : st) : Prop := forall c, c < next s -> coll s' c = coll s c.
Definition fl (s s' : st) : Prop := l_sc s' = l_sc s /\ l_ix s' = l_ix s /\ scset s' = scset s /\ ixset s' = ixset s.
Record K (t : option site) (h : list (lk * bool)) (s s' : st) : Prop := {
  k_inv : INV s'; k_held : Permutation (held s') h; k_fr : fr t s s'; k_fu : fu s s'; k_fc : fc s s'; k_fl : fl s s'
}.

Lemma lost_app a b : lost (a ++ b) = match lost b with Some y => Some y | None => lost a end.
Proof.
  induction a as [|[x ok] a IH]; cbn; [destruct (lost b); reflexivity|]. rewrite IH. destruct (lost b); reflexivity.
Qed.
Lemma fr_refl s : fr None s s.
Proof. split; auto. exists []; auto. Qed.
Lemma fr_trans t s s1 s2 : fr None s s1 -> fr t s1 s2 -> fr t s s2.
Proof.
  intros [] []. split; try lia; try congruence.
  destruct f_acc0 as (n & E & L), f_acc1 as (n' & E' & L'). exists (n' ++ n). split.
  - rewrite E', E, app_assoc; auto.
  - rewrite lost_app, L; auto.
Qed.
Lemma fr_trans' t s s1 s2 : fr (Some t) s s1 -> fr None s1 s2 -> fr (Some t) s s2.
Proof.
  intros [] []. split; try lia; try congruence.
  destruct f_acc0 as (n & E & L), f_acc1 as (n' & E' & L'). exists (n' ++ n). split.
  - rewrite E', E, app_assoc; auto.
  - rewrite lost_app, L; auto.
Qed.
Lemma K_refl h s : INV s -> Permutation (held s) h -> K None h s s.
Proof. intros I P. split; auto. apply fr_refl. all: red; auto. Qed.
Lemma fc_trans s s1 s2 : next s <= next s1 -> fc s s1 -> fc s1 s2 -> fc s s2.
Proof. intros L A B c C. rewrite B by lia. apply A; auto. Qed.
Lemma fu_trans s s1 s2 : next s <= next s1 -> fu s s1 -> fu s1 s2 -> fu s s2.
Proof. intros L A B c C. rewrite B by lia. apply A; auto. Qed.
Lemma fl_trans s s1 s2 : fl s s1 -> fl s1 s2 -> fl s s2.
Proof. unfold fl. intuition congruence. Qed.
Lemma K_trans t h h' s s1 s2 : K None h s s1 -> K t h' s1 s2 -> K t h' s s2.
Proof.
  intros [] []. pose proof (f_next _ _ _ k_fr0). split; auto.
  - eapply fr_trans; eauto.
  - eapply fu_trans; eauto.
  - eapply fc_trans; eauto.
  - eapply fl_trans; eauto.
Qed.
Lemma K_trans' t h h' s s1 s2 : K (Some t) h s s1 -> K None h' s1 s2 -> K (Some t) h' s s2.
Proof.
  intros [] []. pose proof (f_next _ _ _ k_fr0). split; auto.
  - eapply fr_trans'; eauto.
  - eapply fu_trans; eauto.
  - eapply fc_trans; eauto.
  - eapply fl_trans; eauto.
Qed.
Lemma K_perm t h h' s s' : Permutation h h' -> K t h s s' -> K t h' s s'.
Proof. intros P []; split; auto. rewrite k_held0; auto. Qed.
Lemma K_coll t h s s' c : K t h s s' -> c < next s -> coll s' c = coll s c.
Proof. intros []. apply k_fc0. Qed.
Lemma K_next t h s s' : K t h s s' -> next s <= next s'.
Proof. intros [? ? []]; auto. Qed.

(** ** the steps *)
Definition known (k : lk) (s : st) : Prop := match k with KStats i | KSeg i => i < next s | _ => True end.
Lemma set_held_inv s h : INV s -> (forall x, In x h -> In x (held s) \/ known (fst x) s) -> INV (set_held s h).
Proof.
  intros [] H. split; cbn; auto.
  - intros i w I. destruct (H _ I) as [J | J]; eauto.
  - intros i w I. destruct (H _ I) as [J | J]; eauto.
Qed.
Lemma set_held_K s h h' : INV s -> Permutation h h' -> (forall x, In x h -> In x (held s) \/ known (fst x) s) -> K None h' s (set_held s h).
Proof.
  intros I P H. split; cbn; auto.
  - apply set_held_inv; auto.
  - split; cbn; auto. exists []; auto.
  - red; auto.
  - red; auto.
  - red; auto.
Qed.
Lemma wp_lock k w h s (Q : res _ -> st -> Prop) : INV s -> Permutation (held s) h -> known k s -> avail k w h = true ->
  (forall s', K None ((k, w) :: h) s s' -> Q (Ret tt) s') -> wp (lock k w) s Q.
Proof.
  intros I P N A H. unfold wp, lock. rewrite (avail_perm _ _ _ _ P), A. cbn. apply H.
  apply set_held_K; auto. intros x [<- | J]; auto.
Qed.
Lemma wp_unlock k w h h' s (Q : res _ -> st -> Prop) : INV s -> Permutation (held s) h' -> Permutation h' ((k, w) :: h) ->
  (forall s', K None h s s' -> Q (Ret tt) s') -> wp (unlock k w) s Q.
Proof.
  intros I P P' H. unfold wp, unlock. rewrite P' in P.
  destruct (drop_perm _ _ _ _ P) as (r & -> & Pr). cbn. apply H.
  apply set_held_K; auto. intros x J. left. eapply Permutation_in; [apply Permutation_sym, P|]. right. eapply Permutation_in; eauto.
Qed.
Lemma wp_unlock_dead k w h s (Q : res _ -> st -> Prop) : Permutation (held s) h -> ~ In (k, w) h -> Q Dead s -> wp (unlock k w) s Q.
Proof.
  intros P N H. unfold wp, unlock. destruct (drop k w (held s)) eqn:D; auto. exfalso. apply N.
  eapply Permutation_in; [exact P|]. clear - D. revert l D. induction (held s) as [|x h IH]; cbn; intros l D; [discriminate|].
  destruct (lk_eqb (fst x) k && Bool.eqb (snd x) w) eqn:E.
  - apply andb_true_iff in E as [E1 E2]. apply lk_eqb_eq in E1. apply eqb_prop in E2. destruct x; cbn in *; subst. auto.
  - destruct (drop k w h) eqn:D'; [|discriminate]. right. eapply IH; eauto.
Qed.
Lemma wp_io x h s (Q : res _ -> st -> Prop) : INV s -> Permutation (held s) h ->
  (forall ok s', K (if negb ok && costly x then Some x else None) h s s' -> acc s' = (x, ok) :: acc s -> Q (Ret ok) s') -> wp (io x) s Q.
Proof.
  intros I P H. unfold wp, io. cbn. apply H; [|reflexivity]. split; cbn; auto.
  - destruct I; split; auto.
  - split; cbn; auto. exists [(x, works s (length (acc s)) x)]. split; auto.
  - red; auto.
  - red; auto.
  - red; auto.
Qed.
Lemma wp_pick h s (Q : res _ -> st -> Prop) : INV s -> Permutation (held s) h -> (forall n s', K None h s s' -> Q (Ret n) s') -> wp pick s Q.
Proof.
  intros I P H. unfold wp, pick. cbn. apply H. split; cbn; auto.
  - destruct I; split; auto.
  - split; cbn; auto. exists []; auto.
  - red; auto.
  - red; auto.
  - red; auto.
Qed.
Lemma wp_fresh h s (Q : res _ -> st -> Prop) : INV s -> Permutation (held s) h ->
  (forall n s', K None h s s' -> n = next s -> next s' = S (next s) -> Q (Ret n) s') -> wp fresh s Q.
Proof.
  intros I P H. unfold wp, fresh. cbn. apply H; auto. split; cbn; auto.
  - destruct I. split; cbn; auto.
    + intros c i J. specialize (i_known0 c i J). lia.
    + intros i w J. specialize (i_seg0 i w J). lia.
    + intros i w J. specialize (i_stat0 i w J). lia.
    + destruct (l_sc s), (l_ix s); auto. intuition lia.
  - split; cbn; auto. exists []; auto.
  - red; auto.
  - red; auto.
  - red; auto.
Qed.

Definition plain (h : list (lk * bool)) : Prop :=
  forallb (fun x => match fst x with KSeg _ | KStats _ => false | _ => true end) h = true.
Lemma plain_seg h i w : plain h -> avail (KSeg i) w h = true.
Proof.
  intros H. apply avail_none. intros w' J. unfold plain in H. rewrite forallb_forall in H. specialize (H _ J). discriminate.
Qed.
Lemma plain_stat h i w : plain h -> avail (KStats i) w h = true.
Proof.
  intros H. apply avail_none. intros w' J. unfold plain in H. rewrite forallb_forall in H. specialize (H _ J). discriminate.
Qed.
Global Hint Resolve plain_seg plain_stat : core.

(** ** parts that keep the locks *)
Definition endp (p : bool) {A} (r : res A) : Prop := (p = true /\ r = Raise) \/ exists a, r = Ret a.
Section panics.
(** may the part panic *)
Variable p : bool.
Definition keep {A} (h : list (lk * bool)) (s : st) (m : M A) : Prop :=
  INV s -> Permutation (held s) h -> wp m s (fun r s' => endp p r /\ K None h s s').

Lemma endp_ret {A} (a : A) : endp p (Ret a). Proof. right; eauto. Qed.
Lemma endp_raise {A B} : endp p (@Raise A) -> endp p (@Raise B).
Proof. intros [[E _] | [? E]]; [left; auto | discriminate]. Qed.
Hint Resolve endp_ret endp_raise : core.

Lemma keep_ret {A} h s (a : A) : keep h s (ret a).
Proof. intros I P. apply wp_ret. split; auto. apply K_refl; auto. Qed.
Lemma keep_raise {A} h s : p = true -> keep h s (@raise A).
Proof. intros E I P. unfold wp, raise; cbn. split; [left; auto|]. apply K_refl; auto. Qed.
Lemma keep_bind {A B} h s (m : M A) (f : A -> M B) :
  keep h s m -> (forall a s', K None h s s' -> keep h s' (f a)) -> keep h s (bind m f).
Proof.
  intros H1 H2 I P. apply wp_bind. eapply wp_mono; [apply H1; auto|].
  intros r s' (E & X). destruct r as [a| | |]; cbn.
  - eapply wp_mono; [apply (H2 a s' X); [apply X | apply X]|]. intros r' s2 (E' & Y). split; auto. eapply K_trans; eauto.
  - split; [eapply endp_raise; eauto | auto].
  - destruct E as [[_ E] | [? E]]; discriminate.
  - destruct E as [[_ E] | [? E]]; discriminate.
Qed.
Lemma keep_need {A} h s (o : option A) : p = true -> keep h s (need o).
Proof. intros E. destruct o; [apply keep_ret | apply keep_raise; auto]. Qed.
Lemma keep_get {A} h s (f : st -> A) : keep h s (get f).
Proof. intros I P. unfold wp, get; cbn. split; auto. apply K_refl; auto. Qed.
Lemma keep_get_bind {A B} h s (f : st -> A) (k : A -> M B) : keep h s (k (f s)) -> keep h s (bind (get f) k).
Proof. intros H I P. apply wp_bind. unfold wp at 1, get; cbn. apply H; auto. Qed.
Lemma keep_need_bind {A B} h s (o : option A) (k : A -> M B) :
  (o = None -> p = true) -> (forall a, o = Some a -> keep h s (k a)) -> keep h s (bind (need o) k).
Proof.
  intros E H. destruct o as [a|]; cbn.
  - intros I P. apply wp_bind. apply wp_ret. apply H; auto.
  - intros I P. apply wp_bind. unfold wp; cbn. split; [left; auto|]. apply K_refl; auto.
Qed.
Lemma keep_pick h s : keep h s pick.
Proof. intros I P. eapply wp_pick; eauto. Qed.
Lemma keep_pickb h s : keep h s pickb.
Proof. apply keep_bind; [apply keep_pick|]. intros; apply keep_ret. Qed.
Lemma keep_io h s x : costly x = false -> keep h s (io x).
Proof. intros C I P. eapply wp_io; eauto. intros ok s' X _. rewrite C, andb_false_r in X. auto. Qed.
Lemma keep_touch h s k w : known k s -> avail k w h = true -> keep h s (touch k w).
Proof.
  intros N A I P. apply wp_bind. eapply wp_lock; eauto. intros s1 X. cbn.
  eapply wp_unlock; [apply X | apply X | reflexivity |]. intros s2 Y. split; auto. eapply K_trans; eauto.
Qed.
Lemma keep_if {A} h s (b : bool) (m m' : M A) : keep h s m -> keep h s m' -> keep h s (if b then m else m').
Proof. destruct b; auto. Qed.
Lemma keep_each {A} h (l : list A) f : forall s, (forall a s', K None h s s' -> In a l -> keep h s' (f a)) -> keep h s (each l f).
Proof.
  induction l as [|a l IH]; intros s H; cbn; [apply keep_ret|]. intros I P.
  apply keep_bind; auto.
  - apply H; [apply K_refl; auto | left; auto].
  - intros ok s1 X. apply keep_if; [|apply keep_ret]. apply IH. intros b s2 Y J. apply H; [eapply K_trans; eauto | right; auto].
Qed.
Lemma keep_all_of {A} h (l : list A) f : forall s, (forall a s', K None h s s' -> In a l -> keep h s' (f a)) -> keep h s (all_of l f).
Proof.
  induction l as [|a l IH]; intros s H; cbn.
  - apply keep_bind; [apply keep_pickb|]. intros; apply keep_ret.
  - intros I P. apply keep_bind; auto.
    + apply H; [apply K_refl; auto | left; auto].
    + intros ok s1 X. apply keep_bind; [|intros; apply keep_ret].
      apply IH. intros b s2 Y J. apply H; [eapply K_trans; eauto | right; auto].
Qed.
Lemma keep_times h n f : forall s, (forall s', K None h s s' -> keep h s' f) -> keep h s (times n f).
Proof.
  induction n as [|n IH]; intros s H; cbn; [apply keep_ret|]. intros I P.
  apply keep_bind; auto.
  - apply H. apply K_refl; auto.
  - intros ok s1 X. apply keep_if; [|apply keep_ret]. apply IH. intros s2 Y. apply H. eapply K_trans; eauto.
Qed.
Lemma wp_pickb h s (Q : res _ -> st -> Prop) : INV s -> Permutation (held s) h -> (forall b s', K None h s s' -> Q (Ret b) s') -> wp pickb s Q.
Proof. intros I P H. apply wp_bind. eapply wp_pick; eauto. intros n s' X. apply wp_ret. auto. Qed.
Lemma wp_some_of h l : forall s (Q : res _ -> st -> Prop), INV s -> Permutation (held s) h ->
  (forall l' s', K None h s s' -> incl l' l -> (NoDup l -> NoDup l') -> Q (Ret l') s') -> wp (some_of l) s Q.
Proof.
  induction l as [|i l IH]; intros s Q I P H; cbn.
  - apply wp_ret. apply H; [apply K_refl; auto | intros x []| auto].
  - apply wp_bind. eapply wp_pickb; eauto. intros b s1 X.
    cbn. apply wp_bind. apply IH; [apply X | apply X|]. intros l' s2 Y J N. cbn. apply wp_ret.
    apply H; [eapply K_trans; eauto | |].
    + destruct b; [intros y [<- | Z]; [left; auto | right; auto] | intros y Z; right; auto].
    + intros D. inversion D as [|? ? D1 D2]; subst. destruct b; auto. constructor; auto.
Qed.
Lemma wp_one_of h l s (Q : res _ -> st -> Prop) : INV s -> Permutation (held s) h ->
  (forall o s', K None h s s' -> (forall i, o = Some i -> In i l) -> Q (Ret o) s') -> wp (one_of l) s Q.
Proof.
  intros I P H. apply wp_bind. eapply wp_pick; eauto. intros n s' X. cbn. apply wp_ret. apply H; auto.
  intros i E. eapply nth_error_In; eauto.
Qed.

(** ** segments *)

Lemma wp_elem_full h i ro s (Q : res _ -> st -> Prop) : INV s -> Permutation (held s) h -> i < next s -> avail (KSeg i) (negb ro) h = true ->
  (forall s', K None ((KSeg i, negb ro) :: h) s s' -> Q (Ret true) s') ->
  (forall s', K None h s s' -> Q (Ret false) s') -> wp (elem_full i ro) s Q.
Proof.
  intros I P L A H1 H2. unfold elem_full. apply wp_bind. eapply wp_lock; eauto. intros s1 X1. cbn [cont].
  apply wp_bind. eapply wp_pickb; [apply X1 | apply X1 |]. intros b s2 X2. cbn [cont].
  pose proof (K_trans _ _ _ _ _ _ X1 X2) as X3. destruct b; [apply wp_ret; auto|].
  apply wp_bind. eapply wp_io; [apply X2 | apply X2 |]. intros ok s3 X4 _. cbn [cont costly] in *. rewrite andb_false_r in X4.
  pose proof (K_trans _ _ _ _ _ _ X3 X4) as X5. destruct ok; [apply wp_ret; auto|].
  apply wp_bind. eapply wp_unlock; [apply X4 | apply X4 | reflexivity|]. intros s4 X6. cbn [cont]. apply wp_ret. apply H2. eapply K_trans; eauto.
Qed.
Lemma keep_deferred_unlock {A} h k w s (m : M A) :
  keep ((k, w) :: h) s m ->
  INV s -> Permutation (held s) ((k, w) :: h) -> wp (deferred (unlock k w) m) s (fun r s' => endp p r /\ K None h s s').
Proof.
  intros H I P. apply wp_deferred. eapply wp_mono; [apply H; auto|]. intros r s1 (E & X).
  destruct r as [a| | |]; try (destruct E as [[_ E] | [? E]]; discriminate).
  - eapply wp_unlock; [apply X | apply X | reflexivity |]. intros s2 Y. cbn. apply wp_ret. split; auto. eapply K_trans; eauto.
  - eapply wp_unlock; [apply X | apply X | reflexivity |]. intros s2 Y. cbn. unfold wp; cbn. split; auto. eapply K_trans; eauto.
Qed.
Lemma keep_reading h i s m : i < next s -> avail (KSeg i) false h = true ->
  (forall s', K None ((KSeg i, false) :: h) s s' -> keep ((KSeg i, false) :: h) s' m) -> keep h s (reading i m).
Proof.
  intros L A H I P. apply wp_bind. eapply wp_elem_full; eauto.
  - intros s1 X. cbn. eapply wp_mono; [apply keep_deferred_unlock; [apply H; exact X | apply X | apply X]|].
    intros r s2 (E & Y). split; auto. eapply K_trans; eauto.
  - intros s1 X. cbn. apply wp_ret. split; auto.
Qed.
(** a segment that is locked for writing is saved and unlocked *)
Lemma wp_touch h k w s (Q : res _ -> st -> Prop) : INV s -> Permutation (held s) h -> known k s -> avail k w h = true ->
  (forall s', K None h s s' -> Q (Ret tt) s') -> wp (touch k w) s Q.
Proof.
  intros I P N A H. apply wp_bind. eapply wp_lock; eauto. intros s1 X. cbn.
  eapply wp_unlock; [apply X | apply X | reflexivity |]. intros s2 Y. apply H. eapply K_trans; eauto.
Qed.
Lemma wp_replace_seg h h' c i x s (Q : res _ -> st -> Prop) : INV s -> Permutation (held s) h' -> Permutation h' ((KSeg i, true) :: h) -> c < next s ->
  avail (KStats c) true h = true ->
  (forall ok s', K (if negb ok && costly x then Some x else None) h s s' -> Q (Ret ok) s') -> wp (replace_seg c i x) s Q.
Proof.
  intros I P P' L A H. unfold replace_seg. apply wp_deferred. apply wp_bind.
  assert (A' : avail (KStats c) true h' = true) by (rewrite (avail_perm _ _ _ _ P'); apply avail_other; [discriminate | auto]).
  eapply wp_touch; eauto. intros s1 X. cbn [cont].
  eapply wp_io; [apply X | apply X |]. intros ok s2 Y _.
  eapply wp_unlock; [apply Y | apply Y | exact P' |]. intros s3 Z. cbn. apply wp_ret. apply H.
  destruct (negb ok && costly x).
  - eapply K_trans; [apply X|]. eapply K_trans'; eauto.
  - eapply K_trans; [apply X|]. eapply K_trans; eauto.
Qed.
Lemma keep_rewrite h c i s : c < next s -> i < next s -> plain h -> keep h s (rewrite c i).
Proof.
  intros L L' N I P. apply wp_bind. eapply wp_elem_full; eauto.
  - intros s1 X. cbn [cont]. eapply wp_replace_seg; [apply X | apply X | reflexivity | pose proof (K_next _ _ _ _ X); lia | auto |].
    intros ok s2 Y. cbn [costly] in Y. rewrite andb_false_r in Y. split; auto. eapply K_trans; eauto.
  - intros s1 X. cbn. apply wp_ret; auto.
Qed.

(** ** reading and rewriting collections *)
Ltac nx := cbn [known]; auto; repeat match goal with X : K _ _ ?a ?b |- _ =>
    lazymatch goal with H : next a <= next b |- _ => fail | _ => pose proof (K_next _ _ _ _ X) end end; lia.
Lemma keep_intro {A} h s (m : M A) : (INV s -> Permutation (held s) h -> keep h s m) -> keep h s m.
Proof. intros H I P. apply H; auto. Qed.
(** [l] are loaders *)
Definition segs_in (l : list nat) (s : st) : Prop := forall i, In i l -> i < next s.
Lemma segs_in_coll s c : INV s -> segs_in (coll s c) s.
Proof. intros I i. apply I. Qed.
Lemma segs_in_K t h l s s' : K t h s s' -> segs_in l s -> segs_in l s'.
Proof. intros X H i J. specialize (H i J). pose proof (K_next _ _ _ _ X). lia. Qed.
Lemma segs_in_incl l l' s : segs_in l s -> incl l' l -> segs_in l' s.
Proof. intros H J i X. auto. Qed.
Definition keepr {A} (h : list (lk * bool)) (s : st) (m : M A) (R : A -> Prop) : Prop :=
  INV s -> Permutation (held s) h -> wp m s (fun r s' => endp p r /\ K None h s s' /\ forall a, r = Ret a -> R a).
Lemma keepr_keep {A} h s (m : M A) R : keepr h s m R -> keep h s m.
Proof. intros H I P. eapply wp_mono; [apply H; auto|]. cbn. tauto. Qed.
Lemma keep_keepr {A} h s (m : M A) : keep h s m -> keepr h s m (fun _ => True).
Proof. intros H I P. eapply wp_mono; [apply H; auto|]. cbn. tauto. Qed.
Lemma keepr_bind {A B} h s (m : M A) (f : A -> M B) R R' :
  keepr h s m R -> (forall a s', K None h s s' -> R a -> keepr h s' (f a) R') -> keepr h s (bind m f) R'.
Proof.
  intros H1 H2 I P. apply wp_bind. eapply wp_mono; [apply H1; auto|].
  intros r s' (E & X & Y). destruct r as [a| | |]; cbn; try (destruct E as [[_ E] | [? E]]; discriminate).
  - eapply wp_mono; [apply (H2 a s' X (Y _ eq_refl)); [apply X | apply X]|]. intros r' s2 (E' & Z & T). split; auto. split; auto. eapply K_trans; eauto.
  - split; [eapply endp_raise; eauto|]. split; auto. discriminate.
Qed.
Lemma keep_bindr {A B} h s (m : M A) (f : A -> M B) R :
  keepr h s m R -> (forall a s', K None h s s' -> R a -> keep h s' (f a)) -> keep h s (bind m f).
Proof.
  intros H1 H2. eapply keepr_keep. eapply keepr_bind; [exact H1|]. intros. apply keep_keepr; eauto.
Qed.
Lemma keepr_ret {A} h s (a : A) (R : A -> Prop) : R a -> keepr h s (ret a) R.
Proof. intros H I P. apply wp_ret. split; auto. split; [apply K_refl; auto | congruence]. Qed.
Lemma keepr_get_bind {A B} h s (f : st -> A) (k : A -> M B) R : keepr h s (k (f s)) R -> keepr h s (bind (get f) k) R.
Proof. intros H I P. apply wp_bind. unfold wp at 1, get; cbn. apply H; auto. Qed.
Lemma keepr_mono {A} h s (m : M A) (R R' : A -> Prop) : keepr h s m R -> (INV s -> forall a, R a -> R' a) -> keepr h s m R'.
Proof. intros H J I P. eapply wp_mono; [apply H; auto|]. cbn. intros r s' (E & X & Y). split; auto. Qed.
Lemma keepr_some_of h s l : keepr h s (some_of l) (fun l' => incl l' l /\ (NoDup l -> NoDup l')).
Proof. intros I P. eapply wp_some_of; eauto. intros l' s' X J N. split; auto. split; auto. intros a [= <-]; auto. Qed.
Lemma keepr_one_of h s l : keepr h s (one_of l) (fun o => forall i, o = Some i -> In i l).
Proof. intros I P. eapply wp_one_of; eauto. intros l' s' X J. split; auto. split; auto. intros a [= <-]; auto. Qed.

Ltac kp :=
  match goal with
  | |- keep _ _ (bind (get _) _) => apply keep_get_bind; cbv beta
  | |- keep _ _ (bind (need _) _) => apply keep_need_bind; [auto; congruence | intros]
  | |- keep _ _ (bind _ _) => apply keep_bind; [|intros]
  | |- keep _ _ (ret _) => apply keep_ret
  | |- keep _ _ raise => apply keep_raise; auto
  | |- keep _ _ pick => apply keep_pick
  | |- keep _ _ pickb => apply keep_pickb
  | |- keep _ _ (need _) => apply keep_need; auto
  | |- keep _ _ (get _) => apply keep_get
  | |- keep _ _ (io _) => apply keep_io; reflexivity
  | |- keep _ _ (touch _ _) => apply keep_touch; [nx | auto; fail]
  | |- keep _ _ (if _ then _ else _) => apply keep_if
  end.

Lemma keep_reindex_map h s c : c < next s -> plain h -> keep h s (reindex_map c).
Proof. intros. unfold reindex_map. repeat kp. Qed.
Lemma keepr_split_by_id h s c : c < next s -> plain h -> keepr h s (split_by_id c) (fun l => incl l (coll s c) /\ NoDup l).
Proof.
  intros L N. unfold split_by_id. apply keepr_bind with (R := fun _ => True).
  { apply keep_keepr. apply keep_reindex_map; auto. }
  intros _ s1 X _. apply keepr_bind with (R := fun _ => True).
  { apply keep_keepr. kp. }
  intros _ s2 Y _. apply keepr_get_bind. eapply keepr_mono; [apply keepr_some_of|].
  intros I l (T1 & T2). split; [|apply T2, I]. rewrite <- (K_coll _ _ _ _ c X), <- (K_coll _ _ _ _ c Y); auto; nx.
Qed.
Lemma keepr_split_by_score h s c : c < next s -> plain h -> keepr h s (split_by_score c) (fun l => incl l (coll s c) /\ NoDup l).
Proof.
  intros L N. unfold split_by_score. apply keepr_get_bind. apply keepr_bind with (R := fun _ => True).
  { apply keep_keepr. apply keep_each. intros a s' X J. repeat kp. }
  intros _ s1 X _. eapply keepr_mono; [apply keepr_some_of|].
  intros I l (T1 & T2). split; [auto|]. apply T2. rewrite <- (K_coll _ _ _ _ c X); auto. apply I.
Qed.
(** only reads, possibly inside other reads *)
Definition readable (h : list (lk * bool)) (l : list nat) : Prop := forall i, In i l -> avail (KSeg i) false h = true.
Lemma readable_plain h l : plain h -> readable h l.
Proof. intros N i _. auto. Qed.
Lemma readable_cons h l i : readable h l -> readable ((KSeg i, false) :: h) l.
Proof. intros H j J. apply avail_read; auto. Qed.
Lemma keep_neighbours l : forall h s, segs_in l s -> readable h l -> keep h s (neighbours l).
Proof.
  induction l as [|i l IH]; intros h s S R; cbn; [kp|]. kp; [kp|]. apply keep_if; [|kp].
  apply keep_reading; [specialize (S i (or_introl eq_refl)); nx | apply R; left; auto|].
  intros s2 Y. apply IH.
  - intros j J. specialize (S j (or_intror J)). nx.
  - apply readable_cons. intros j J; apply R; right; auto.
Qed.
Lemma incl_skipn {A} n (l : list A) : incl (skipn n l) l.
Proof. intros x H. rewrite <- (firstn_skipn n l). apply in_app_iff; auto. Qed.
Lemma incl_firstn {A} n (l : list A) : incl (firstn n l) l.
Proof. intros x H. rewrite <- (firstn_skipn n l). apply in_app_iff; auto. Qed.
Lemma readable_incl h l l' : readable h l -> incl l' l -> readable h l'.
Proof. intros R J i X. auto. Qed.
Lemma incl_rev_l {A} (l l' : list A) : incl l l' -> incl (rev l) l'.
Proof. intros H x J. apply H. apply in_rev; auto. Qed.
Lemma keep_find_ranked h s c : c < next s -> readable h (coll s c) -> keep h s (find_ranked c).
Proof.
  intros L R. apply keep_intro; intros I P. unfold find_ranked. kp; [kp|]. kp.
  assert (E : coll s' c = coll s c) by (eapply K_coll; eauto). rewrite E.
  assert (S : segs_in (coll s c) s') by (rewrite <- E; apply segs_in_coll; apply H).
  kp; [|kp; [|kp]].
  - apply keep_neighbours; [eapply segs_in_incl; eauto | eapply readable_incl; eauto]; apply incl_skipn.
  - apply keep_neighbours; [eapply segs_in_incl; [eapply segs_in_K; eauto|] | eapply readable_incl; eauto]; apply incl_rev_l, incl_firstn.
Qed.
Lemma keep_get_first h s c : c < next s -> plain h -> keep h s (get_first c).
Proof.
  intros L N. apply keep_intro; intros I P. unfold get_first. eapply keep_bindr; [apply keepr_split_by_score; auto|].
  intros l s1 X (J & _). apply keep_all_of. intros i s2 Y M. apply keep_reading; auto.
  - pose proof (segs_in_coll s c I i (J i M)). nx.
  - intros; kp.
Qed.
Lemma keep_find_elements h s c : c < next s -> plain h -> keep h s (find_elements c).
Proof.
  intros L N. apply keep_intro; intros I P. unfold find_elements. kp; [kp|]. apply keep_if; [|kp].
  eapply keep_bindr; [apply keepr_split_by_id; auto; nx|].
  intros l s1 X (J & _). kp; [kp|]. apply keep_all_of. intros i s2 Y M. apply keep_reading; auto.
  - pose proof (segs_in_coll s c I i). rewrite <- (K_coll _ _ _ _ c H) in H1 by auto. specialize (H1 (J _ M)). nx.
  - intros s3 Z. kp; [kp|]. apply keep_times. intros s4 Z4. apply keep_find_ranked; [nx|].
    apply readable_cons, readable_plain; auto.
Qed.
Lemma keep_get_elements_offset h s c : c < next s -> readable h (coll s c) -> keep h s (get_elements_offset c).
Proof.
  intros L R. apply keep_intro; intros I P. unfold get_elements_offset. kp; [kp|]. kp.
  assert (E : coll s' c = coll s c) by (eapply K_coll; eauto). rewrite E.
  apply keep_each. intros i s1 X M. apply incl_skipn in M. apply keep_reading; auto.
  - pose proof (segs_in_coll s c I i M). nx.
  - intros; kp.
Qed.
Lemma keep_get_elements_from_score h s c : p = true -> c < next s -> plain h -> keep h s (get_elements_from_score c).
Proof.
  intros T L N. apply keep_intro; intros I P. unfold get_elements_from_score. kp.
  eapply keep_bindr; [apply keepr_one_of|]. intros o s1 X J. destruct o as [i|]; [|kp].
  specialize (J i eq_refl). apply keep_reading; auto.
  - pose proof (segs_in_coll s c I i J). nx.
  - intros s2 Y. apply keep_get_elements_offset; [nx|]. apply readable_cons, readable_plain; auto.
Qed.
Lemma keep_get_element_index h s c : p = true -> c < next s -> plain h -> keep h s (get_element_index c).
Proof.
  intros T L N. apply keep_intro; intros I P. unfold get_element_index. kp.
  eapply keep_bindr; [apply keepr_one_of|]. intros o s1 X J. destruct o as [i|]; [|kp].
  specialize (J i eq_refl). apply keep_reading; auto.
  - pose proof (segs_in_coll s c I i J). nx.
  - intros s2 Y. kp; [kp|]. apply keep_if; [kp|]. apply keep_find_ranked; [nx|]. apply readable_cons, readable_plain; auto.
Qed.
Lemma keep_rewrites h s c l : c < next s -> plain h -> segs_in l s -> keep h s (all_of l (rewrite c)).
Proof. intros L N S. apply keep_all_of. intros i s1 X J. specialize (S i J). apply keep_rewrite; auto; nx. Qed.
Lemma keep_delete_idx h s c : c < next s -> plain h -> keep h s (delete_idx c).
Proof.
  intros L N. apply keep_intro; intros I P. unfold delete_idx. eapply keep_bindr; [apply keepr_split_by_id; auto|].
  intros l s1 X (J & _). apply keep_rewrites; auto; [nx|]. eapply segs_in_K; eauto. eapply segs_in_incl; [apply segs_in_coll; auto | exact J].
Qed.
Lemma keep_update_index h s c : c < next s -> plain h -> keep h s (update_index c).
Proof.
  intros L N. apply keep_intro; intros I P. unfold update_index. eapply keep_bindr; [apply keepr_split_by_score; auto|].
  intros l s1 X (J & _). apply keep_rewrites; auto; [nx|]. eapply segs_in_K; eauto. eapply segs_in_incl; [apply segs_in_coll; auto | exact J].
Qed.
(** the choice of segments under the lock of the collection *)
Lemma keepr_choose h s c : c < next s -> plain h ->
  keepr h s (deferred (unlock (KStats c) false) (lock (KStats c) false;; l <- get (fun s => coll s c);; some_of l))
        (fun l => incl l (coll s c)).
Proof.
  intros L N I P. apply wp_deferred. apply wp_bind. eapply wp_lock; eauto. intros s1 X. cbn [cont].
  apply wp_bind. unfold wp at 1, get; cbn [fst snd cont].
  eapply wp_some_of; [apply X | apply X |]. intros l s2 Y J _.
  eapply wp_unlock; [apply Y | apply Y | reflexivity|]. intros s3 Z. cbn. apply wp_ret. split; auto. split.
  - eapply K_trans; [exact X|]. eapply K_trans; eauto.
  - intros a [= <-]. rewrite <- (K_coll _ _ _ _ c X); auto.
Qed.
Lemma keep_delete_sorted h s c : c < next s -> plain h -> keep h s (delete_sorted c).
Proof.
  intros L N. apply keep_intro; intros I P. unfold delete_sorted. eapply keep_bindr; [apply keepr_choose; auto|].
  intros l s1 X J. apply keep_all_of. intros i s2 Y M.
  assert (L' : i < next s2) by (pose proof (segs_in_coll s c I i (J i M)); nx).
  intros I2 P2. apply wp_bind. eapply wp_elem_full; eauto.
  - intros s3 Z. cbn [cont]. apply wp_bind. eapply wp_replace_seg; [apply Z | apply Z | reflexivity | nx | auto |].
    intros ok s4 W. cbn [costly cont] in *. rewrite andb_false_r in W. apply wp_ret. split; auto. eapply K_trans; eauto.
  - intros s3 Z. cbn. apply wp_ret; auto.
Qed.
Lemma keep_insert_sorted h s c : c < next s -> plain h -> keep h s (insert_sorted c).
Proof.
  intros L N. apply keep_intro; intros I P. unfold insert_sorted. eapply keep_bindr; [apply keepr_choose; auto|].
  intros l s1 X J. apply keep_rewrites; auto; [nx|]. eapply segs_in_K; eauto. eapply segs_in_incl; [apply segs_in_coll; auto | exact J].
Qed.
Lemma keep_read_all h s c : c < next s -> plain h -> keep h s (read_all c).
Proof.
  intros L N. apply keep_intro; intros I P. unfold read_all. kp; [kp|]. kp. apply keep_all_of. intros i s1 X J. apply keep_reading; auto.
  - pose proof (segs_in_coll _ _ (k_inv _ _ _ _ H) i J). nx.
  - intros; kp.
Qed.
Lemma keep_verify_coll h s c : c < next s -> plain h -> keep h s (verify_coll c).
Proof. intros L N. unfold verify_coll. kp. apply keep_each. intros. repeat kp. Qed.
End panics.
