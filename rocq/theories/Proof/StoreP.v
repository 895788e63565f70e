(** Stored segments and cache entries under sequences of writes. *)
From Coq Require Import Strings.String Strings.Ascii.
From Verif.Lib Require Import Prelude ListAux ListLemmas Perm Bytes.
From Verif.Model Require Import Element Elements Segment List Keys Storage.
From Verif.Spec Require Import RankSpec QuerySpec HistorySpec KeySpec CodecSpec StorageSpec.
From Verif.Proof Require Import KeysP ChangeP UpdateP UpdateInv.
Open Scope N_scope.

Lemma lit_inj s t : lit s = lit t -> s = t.
Proof. unfold lit. intros H. apply (f_equal string_of_list_ascii) in H. rewrite !string_of_list_ascii_of_string in H. exact H. Qed.
Lemma put_same {A} (f : bytes -> option A) k v : put f k v k = v.
Proof. unfold put. rewrite beq_refl. reflexivity. Qed.
Lemma put_other {A} (f : bytes -> option A) k v k' : k' <> k -> put f k v k' = f k'.
Proof. intros H. unfold put. destruct (beq k' k) eqn:E; [|reflexivity]. apply beq_true in E. contradiction. Qed.

Lemma plain_no_dash s : plain s -> ~ In "-"%char (lit s).
Proof. intros (_ & H & _). apply alnum_not; [exact H|reflexivity]. Qed.
Lemma plain_not_key s n i : plain s -> lit s <> segment_key (lit n) i.
Proof. intros H E. apply (plain_no_dash s H). rewrite E. apply key_has_dash. Qed.

(** the name an event is about *)
Definition ev_name (e : ev) : string :=
  match e with EPut _ s | EDel _ s => sg_parent s | EMeta s => ss_id s | EMetaDel n => n end.
(** the event writes or deletes segment [id] of collection [n] *)
Definition touches (n : string) (id : N) (e : ev) : Prop :=
  match e with EPut _ s | EDel _ s => sg_parent s = n /\ sg_id s = id | _ => False end.
Definition meta_touches (n : string) (e : ev) : Prop :=
  match e with EMeta s => ss_id s = n | EMetaDel m => m = n | _ => False end.
Definition plain_evs (es : list ev) : Prop := Forall (fun e => plain (ev_name e)) es.

Lemma touches_name n id e : touches n id e -> ev_name e = n.
Proof. destruct e; cbn; tauto. Qed.
Lemma meta_touches_name n e : meta_touches n e -> ev_name e = n.
Proof. destruct e; cbn; tauto. Qed.

Lemma ev_store_seg e st n id : plain (ev_name e) -> ~ touches n id e ->
  ev_store e st (segment_key (lit n) id) = st (segment_key (lit n) id).
Proof.
  intros Hp Ht. destruct e as [b s|b s|s|m]; cbn [ev_store ev_name touches] in *; unfold key_of; apply put_other; intros E.
  - apply c24_segment in E as (E1 & E2). apply lit_inj in E1. auto.
  - apply c24_segment in E as (E1 & E2). apply lit_inj in E1. auto.
  - apply (plain_not_key _ _ _ Hp (eq_sym E)).
  - apply (plain_not_key _ _ _ Hp (eq_sym E)).
Qed.
Lemma ev_store_meta e st n : plain n -> ~ meta_touches n e -> ev_store e st (lit n) = st (lit n).
Proof.
  intros Hp Ht. destruct e as [b s|b s|s|m]; cbn [ev_store meta_touches] in *; apply put_other; intros E.
  - apply (plain_not_key _ _ _ Hp E).
  - apply (plain_not_key _ _ _ Hp E).
  - apply lit_inj in E. auto.
  - apply lit_inj in E. auto.
Qed.
Lemma ev_cache_seg e c n id : ~ touches n id e -> ev_cache e c (cache_key (lit n) id) = c (cache_key (lit n) id).
Proof.
  intros Ht. destruct e as [[] s|[] s|s|m]; cbn [ev_cache touches] in *; try reflexivity; unfold ckey_of; apply put_other; intros E;
    apply c24_cache in E as (E1 & E2); apply lit_inj in E1; auto.
Qed.

Lemma evs_store_cons e es st : evs_store (e :: es) st = evs_store es (ev_store e st).
Proof. reflexivity. Qed.
Lemma evs_cache_cons e es c : evs_cache (e :: es) c = evs_cache es (ev_cache e c).
Proof. reflexivity. Qed.
Lemma evs_store_app a b st : evs_store (a ++ b) st = evs_store b (evs_store a st).
Proof. apply fold_left_app. Qed.
Lemma evs_cache_app a b c : evs_cache (a ++ b) c = evs_cache b (evs_cache a c).
Proof. apply fold_left_app. Qed.

Lemma evs_store_seg n id : forall es st, plain_evs es -> (forall e, In e es -> ~ touches n id e) ->
  evs_store es st (segment_key (lit n) id) = st (segment_key (lit n) id).
Proof.
  induction es as [|e es IH]; intros st Hp Ht; [reflexivity|]. rewrite evs_store_cons.
  apply Forall_cons_iff in Hp as (H1 & H2). rewrite IH; [|exact H2|intros; apply Ht; right; assumption].
  apply ev_store_seg; [exact H1|]. apply Ht. left. reflexivity.
Qed.
Lemma evs_store_meta n : forall es st, plain n -> (forall e, In e es -> ~ meta_touches n e) ->
  evs_store es st (lit n) = st (lit n).
Proof.
  induction es as [|e es IH]; intros st Hp Ht; [reflexivity|]. rewrite evs_store_cons.
  rewrite IH; [|exact Hp|intros; apply Ht; right; assumption]. apply ev_store_meta; [exact Hp|]. apply Ht. left. reflexivity.
Qed.
Lemma evs_cache_seg n id : forall es c, (forall e, In e es -> ~ touches n id e) ->
  evs_cache es c (cache_key (lit n) id) = c (cache_key (lit n) id).
Proof.
  induction es as [|e es IH]; intros c Ht; [reflexivity|]. rewrite evs_cache_cons.
  rewrite IH; [|intros; apply Ht; right; assumption]. apply ev_cache_seg. apply Ht. left. reflexivity.
Qed.

(** ** one segment *)
Definition held (st : store) (c : cache) (s : seg) : Prop :=
  st (key_of s) = Some (blob s) /\ (c (ckey_of s) = None \/ c (ckey_of s) = Some (sg_elems s)).

Lemma held_evs h s : forall es st c, plain_evs es -> (h = false -> c (ckey_of s) = None) ->
  (In (EPut h s) es \/ held st c s) ->
  (forall e, In e es -> touches (sg_parent s) (sg_id s) e -> e = EPut h s) ->
  held (evs_store es st) (evs_cache es c) s.
Proof.
  induction es as [|e es IH]; intros st c Hp Hc Hin Ht.
  { destruct Hin as [[]|H]; exact H. }
  rewrite evs_store_cons, evs_cache_cons. apply Forall_cons_iff in Hp as (H1 & H2).
  assert (Hd : e = EPut h s \/ ~ touches (sg_parent s) (sg_id s) e).
  { destruct e as [b x|b x|x|m]; cbn [touches]; auto;
    destruct (string_dec (sg_parent x) (sg_parent s)) as [E1|]; [|right; tauto| |right; tauto];
    destruct (N.eq_dec (sg_id x) (sg_id s)) as [E2|]; try (right; tauto); left; apply Ht; cbn; auto. }
  destruct Hd as [->|Hd].
  - apply IH; [exact H2| | |intros; apply Ht; [right|]; assumption].
    + intros ->. cbn [ev_cache]. auto.
    + right. split.
      * cbn [ev_store]. apply put_same.
      * cbn [ev_cache]. destruct h; [right; apply put_same|left; apply Hc; reflexivity].
  - assert (Ek : ev_cache e c (ckey_of s) = c (ckey_of s)) by (apply ev_cache_seg, Hd).
    apply IH; [exact H2| | |intros; apply Ht; [right|]; assumption].
    + intros E. rewrite Ek. auto.
    + destruct Hin as [[->|Hin]|(A & B)].
      * exfalso. apply Hd. cbn. auto.
      * left. exact Hin.
      * right. split.
        -- unfold key_of. rewrite ev_store_seg; [exact A|exact H1|exact Hd].
        -- rewrite Ek. exact B.
Qed.
Lemma held_frame es st c s : plain_evs es -> (forall e, In e es -> ~ touches (sg_parent s) (sg_id s) e) ->
  held st c s -> held (evs_store es st) (evs_cache es c) s.
Proof.
  intros Hp Ht (A & B). split.
  - unfold key_of. rewrite evs_store_seg; assumption.
  - unfold ckey_of. rewrite evs_cache_seg; assumption.
Qed.

(** ** a collection without cache has nothing in it *)
Definition clean (h : bool) (c : cache) (n : string) : Prop := h = false -> unused c n.
(** the event does not use the cache for [n] unless [h] *)
Definition flagged (h : bool) (n : string) (e : ev) : Prop :=
  match e with EPut b s | EDel b s => sg_parent s = n -> h = false -> b = false | _ => True end.
Lemma clean_evs h n : forall es c, Forall (flagged h n) es -> clean h c n -> clean h (evs_cache es c) n.
Proof.
  induction es as [|e es IH]; intros c HF HC; [exact HC|]. rewrite evs_cache_cons. apply Forall_cons_iff in HF as (H1 & H2).
  apply IH; [exact H2|]. intros E id.
  destruct e as [b s|b s|s|m]; cbn [ev_cache]; try (apply HC; exact E); (destruct b; [|apply HC; exact E]).
  - cbn [flagged] in H1. destruct (string_dec (sg_parent s) n) as [En|En]; [specialize (H1 En E); discriminate|].
    rewrite put_other; [apply HC; exact E|]. intros C. unfold ckey_of in C. apply c24_cache in C as (C & _). apply lit_inj in C. congruence.
  - cbn [flagged] in H1. destruct (string_dec (sg_parent s) n) as [En|En]; [specialize (H1 En E); discriminate|].
    rewrite put_other; [apply HC; exact E|]. intros C. unfold ckey_of in C. apply c24_cache in C as (C & _). apply lit_inj in C. congruence.
Qed.
Lemma clean_frame h n es c : (forall e, In e es -> ev_name e <> n) -> clean h c n -> clean h (evs_cache es c) n.
Proof.
  intros Hn. apply clean_evs. apply Forall_forall. intros e He. specialize (Hn e He).
  destruct e; cbn in *; auto; intros; contradiction.
Qed.
Lemma clean_key h c s : clean h c (sg_parent s) -> h = false -> c (ckey_of s) = None.
Proof. intros H E. apply (H E). Qed.

(** ** a collection *)
Record coll (h : bool) (st : store) (c : cache) (n : string) (l : list seg) : Prop := {
  co_held : Forall (held st c) l;
  co_clean : clean h c n;
  co_par : Forall (fun s => sg_parent s = n) l;
  co_nd : NoDup (map sg_id l)
}.
Lemma coll_frame h st c n l es : plain_evs es -> (forall e, In e es -> ev_name e <> n) ->
  coll h st c n l -> coll h (evs_store es st) (evs_cache es c) n l.
Proof.
  intros Hp Hn [A B C D]. split; auto.
  - rewrite Forall_forall in *. intros s Hs. apply held_frame; [exact Hp| |apply A, Hs].
    intros e He Ht. apply (Hn e He). rewrite (touches_name _ _ _ Ht). apply C, Hs.
  - apply clean_frame; assumption.
Qed.
(** metadata writes *)
Definition meta_ev (e : ev) : Prop := match e with EMeta _ | EMetaDel _ => True | _ => False end.
Lemma coll_meta h st c n l es : plain_evs es -> Forall meta_ev es ->
  coll h st c n l -> coll h (evs_store es st) (evs_cache es c) n l.
Proof.
  intros Hp Hm [A B C D]. rewrite Forall_forall in Hm. split; auto.
  - rewrite Forall_forall in *. intros s Hs. apply held_frame; [exact Hp| |apply A, Hs].
    intros e He Ht. specialize (Hm e He). destruct e; cbn in *; tauto.
  - apply clean_evs; [|exact B]. apply Forall_forall. intros e He. specialize (Hm e He). destruct e; cbn in *; tauto.
Qed.
Lemma coll_raise h st c n l : coll false st c n l -> coll h st c n l.
Proof. intros [A B C D]. split; auto. intros _. apply B. reflexivity. Qed.

Lemma kept_incl a b x y : (forall i, In i a -> In i b) -> kept a x y -> kept b x y.
Proof. intros H (A & B). split; [exact A|]. intros i Hi. apply B. intros C. apply Hi, H, C. Qed.
Lemma kept_refl a x : kept a x x.
Proof. split; auto. Qed.

Lemma puts_In h l is e : In e (puts h l is) <-> exists i s, In i is /\ nth_error l i = Some s /\ e = EPut h s.
Proof.
  unfold puts. rewrite in_flat_map. split.
  - intros (i & Hi & H). destruct (nth_error l i) as [s|] eqn:E; [|destruct H]. destruct H as [<-|[]]. eauto.
  - intros (i & s & Hi & Hs & ->). exists i. split; [exact Hi|]. rewrite Hs. left. reflexivity.
Qed.
Lemma puts_names h l is n : Forall (fun s => sg_parent s = n) l -> forall e, In e (puts h l is) -> ev_name e = n.
Proof.
  intros H e He. apply puts_In in He as (i & s & _ & Hs & ->). cbn. rewrite Forall_forall in H. apply H. eapply nth_error_In, Hs.
Qed.
Lemma names_plain n es : plain n -> (forall e, In e es -> ev_name e = n) -> plain_evs es.
Proof. intros Hp H. apply Forall_forall. intros e He. rewrite (H e He). exact Hp. Qed.
Lemma NoDup_id_eq l (s t : seg) : NoDup (map sg_id l) -> In s l -> In t l -> sg_id s = sg_id t -> s = t.
Proof.
  induction l as [|x l IH]; cbn; intros Hn Hs Ht E; [contradiction|]. apply NoDup_cons_iff in Hn as (N1 & N2).
  destruct Hs as [->|Hs], Ht as [->|Ht]; auto; exfalso; apply N1; [rewrite E|rewrite <- E]; apply in_map; assumption.
Qed.

Lemma coll_puts h st c n l l' is : plain n -> coll h st c n l -> kept is l l' -> Forall (fun s => sg_parent s = n) l' ->
  coll h (evs_store (puts h l' is) st) (evs_cache (puts h l' is) c) n l'.
Proof.
  intros Hn [A B C D] (F & K) Hpar.
  assert (Hnd : NoDup (map sg_id l')) by (rewrite (map_id_frames _ _ F); exact D).
  split; auto.
  - rewrite Forall_forall. intros s Hs. assert (Ps : sg_parent s = n) by (rewrite Forall_forall in Hpar; apply Hpar, Hs).
    apply (held_evs h).
    + apply names_plain with n; [exact Hn|]. apply puts_names. exact Hpar.
    + intros E. apply (clean_key h); [rewrite Ps; exact B|exact E].
    + apply In_nth_error in Hs as (i & Hi). destruct (in_dec Nat.eq_dec i is) as [Y|Y].
      * left. apply puts_In. eauto.
      * right. rewrite (K i Y) in Hi. rewrite Forall_forall in A. apply A. eapply nth_error_In, Hi.
    + intros e He Ht. apply puts_In in He as (j & t & _ & Hj & ->). cbn in Ht. f_equal.
      apply (NoDup_id_eq l'); [exact Hnd|eapply nth_error_In, Hj|exact Hs|apply Ht].
  - apply clean_evs; [|exact B]. apply Forall_forall. intros e He. apply puts_In in He as (j & t & _ & Hj & ->). cbn. auto.
Qed.

Lemma coll_put_all st c n l : plain n -> unused c n -> Forall (fun s => sg_parent s = n) l -> NoDup (map sg_id l) ->
  coll false (evs_store (put_all false l) st) (evs_cache (put_all false l) c) n l.
Proof.
  intros Hn Hu Hpar Hnd.
  assert (Hin : forall e, In e (put_all false l) -> exists s, In s l /\ e = EPut false s).
  { intros e He. unfold put_all in He. apply in_map_iff in He as (s & <- & Hs). eauto. }
  split; auto.
  - rewrite Forall_forall. intros s Hs. assert (Ps : sg_parent s = n) by (rewrite Forall_forall in Hpar; apply Hpar, Hs).
    apply (held_evs false).
    + apply names_plain with n; [exact Hn|]. intros e He. destruct (Hin e He) as (t & Ht & ->). cbn. rewrite Forall_forall in Hpar. apply Hpar, Ht.
    + intros _. unfold ckey_of. rewrite Ps. apply Hu.
    + left. apply in_map, Hs.
    + intros e He Ht. destruct (Hin e He) as (t & Hl & ->). cbn in Ht. f_equal. apply (NoDup_id_eq l); auto. apply Ht.
  - apply clean_evs; [|intros _; exact Hu]. apply Forall_forall. intros e He. destruct (Hin e He) as (t & Hl & ->). cbn. auto.
Qed.
