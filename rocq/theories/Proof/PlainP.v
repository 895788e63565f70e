(** The stores at the bottom are maps from sets and keys, as far as joined keys do not clash. *)
From Coq Require Import Strings.String Strings.Ascii Permutation Sorted.
From Verif.Lib Require Import Prelude ListAux ListLemmas SortLemmas.
From Verif.Model Require Import Keys Access PlainStore.
From Verif.Spec Require Import KeySpec PlainSpec.
From Verif.Proof Require Import KeysP.
Open Scope N_scope.

Section LW.
  Variable okb : bytes -> bytes -> bytes -> bool.
  Let ok s k v := okb s k v = true.
  Fixpoint lw (h : list scall) (s k : bytes) : option bytes :=
    match h with
    | [] => None
    | PSet s' k' v :: h => if beq s' s && beq k' k && okb s' k' v then Some v else lw h s k
    | PDel s' k' :: h => if beq s' s && beq k' k then None else lw h s k
    | PCreate s' k' v :: h => if beq s' s && beq k' k && okb s' k' v then match lw h s k with None => Some v | Some w => Some w end else lw h s k
    | _ :: h => lw h s k
    end.
  Lemma lw_ok : forall h s k r, last_write ok h s k r <-> lw h s k = r.
  Proof.
    assert (B : forall a b, reflect (a = b) (beq a b)) by (intros a b; destruct (beq a b) eqn:E; constructor; [apply beq_true, E|intros ->; rewrite beq_refl in E; discriminate]).
    induction h as [|c h IH]; intros s k r; cbn [last_write lw]; [split; intros; congruence|].
    destruct c as [a b|a b v|a b|a|a|a b v]; try apply IH; rewrite ?IH; unfold ok in *; destruct (B a s) as [H1|H1]; destruct (B b k) as [H2|H2]; cbn [andb];
      try (destruct (okb a b v) eqn:E3; cbn [andb]); try (destruct (lw h s k) eqn:El); intuition (try congruence).
  Qed.
End LW.
Lemma last_write_ext ok ok' : (forall s k v, ok s k v <-> ok' s k v) -> forall h s k r, last_write ok h s k r <-> last_write ok' h s k r.
Proof.
  intros H. induction h as [|c h IH]; intros s k r; cbn [last_write]; [tauto|]. destruct c as [a b|a b v|a b|a|a|a b v]; rewrite ?IH; try tauto; rewrite (H a b v); tauto.
Qed.

Lemma beqP a b : reflect (a = b) (beq a b).
Proof. destruct (beq a b) eqn:E; constructor; [apply beq_true, E|intros ->; rewrite beq_refl in E; discriminate]. Qed.

Lemma beq_sym a b : beq a b = beq b a.
Proof. destruct (beqP a b), (beqP b a); congruence || reflexivity. Qed.

(** joined keys *)
Lemma join_clash : forall s k s' k', to_key s k = to_key s' k' ->
  (s = s' /\ k = k') \/ (exists t, s' = s ++ slash :: t /\ k = t ++ slash :: k') \/ (exists t, s = s' ++ slash :: t /\ k' = t ++ slash :: k).
Proof.
  unfold to_key. induction s as [|c s IH]; intros k [|d s'] k' H; cbn [app] in *; injection H.
  - intros ->. auto.
  - intros -> <-. right. left. exists s'. split; reflexivity.
  - intros <- ->. right. right. exists s. split; reflexivity.
  - intros H' ->. destruct (IH _ _ _ H') as [(-> & ->)|[(t & -> & ->)|(t & -> & ->)]]; [auto|right; left; exists t; auto|right; right; exists t; auto].
Qed.
Lemma join_sets s k s' k' : no_slash s -> no_slash s' -> to_key s k = to_key s' k' -> s = s' /\ k = k'.
Proof.
  intros H1 H2 E. destruct (join_clash _ _ _ _ E) as [H|[(t & -> & _)|(t & -> & _)]]; [exact H| |]; exfalso; [apply H2|apply H1]; apply in_or_app; right; left; reflexivity.
Qed.
Lemma join_keys s k s' k' : no_slash k -> no_slash k' -> to_key s k = to_key s' k' -> s = s' /\ k = k'.
Proof.
  intros H1 H2 E. destruct (join_clash _ _ _ _ E) as [H|[(t & _ & ->)|(t & _ & ->)]]; [exact H| |]; exfalso; [apply H1|apply H2]; apply in_or_app; right; left; reflexivity.
Qed.
Lemma join_one s k s' k' : no_slash s' -> no_slash k' -> to_key s k = to_key s' k' -> s = s' /\ k = k'.
Proof.
  intros H1 H2 E. destruct (join_clash _ _ _ _ E) as [H|[(t & -> & _)|(t & _ & ->)]]; [exact H| |]; exfalso; [apply H1|apply H2]; apply in_or_app; right; left; reflexivity.
Qed.
Lemma drop_prefix_ok : forall p x r, drop_prefix p x = Some r <-> x = p ++ r.
Proof.
  induction p as [|c p IH]; intros x r; cbn [drop_prefix app]; [split; [intros H; congruence|intros ->; reflexivity]|].
  destruct x as [|d x]; [split; discriminate|]. destruct (Ascii.eqb_spec c d) as [->|N].
  - rewrite IH. split; [intros ->; reflexivity|intros H; injection H as ->; reflexivity].
  - split; [discriminate|intros H; injection H as -> ->; congruence].
Qed.
Lemma starts_ok s x : starts (to_key s []) x = true <-> exists r, x = to_key s r.
Proof.
  unfold starts. destruct (drop_prefix (to_key s []) x) as [r|] eqn:E.
  - apply drop_prefix_ok in E. split; [intros _; exists r; rewrite E; unfold to_key; rewrite <- app_assoc; reflexivity|reflexivity].
  - split; [discriminate|]. intros (r & ->). assert (drop_prefix (to_key s []) (to_key s r) = Some r) by (apply drop_prefix_ok; unfold to_key; rewrite <- app_assoc; reflexivity). congruence.
Qed.
Lemma split_slash_none s : no_slash s -> split_slash s = [s].
Proof.
  induction s as [|c s IH]; intros H; cbn [split_slash]; [reflexivity|]. destruct (Ascii.eqb_spec c slash) as [->|N]; [exfalso; apply H; left; reflexivity|].
  rewrite IH; [reflexivity|]. intros C; apply H; right; exact C.
Qed.
Lemma split_slash_app s k : no_slash s -> split_slash (to_key s k) = s :: split_slash k.
Proof.
  unfold to_key. induction s as [|c s IH]; intros H; cbn [split_slash app].
  - reflexivity.
  - destruct (Ascii.eqb_spec c slash) as [->|N]; [exfalso; apply H; left; reflexivity|]. rewrite IH; [reflexivity|]. intros C; apply H; right; exact C.
Qed.
Lemma split_slash_length s : length (split_slash s) = S (length (filter (Ascii.eqb slash) s)).
Proof.
  induction s as [|c s IH]; cbn [split_slash filter]; [reflexivity|]. rewrite (Ascii.eqb_sym slash c). destruct (Ascii.eqb c slash); cbn [length]; [congruence|].
  destruct (split_slash s); cbn [length] in *; [discriminate|exact IH].
Qed.
Lemma split_key_join s k : no_slash s -> no_slash k -> split_key (to_key s k) = Some (s, k).
Proof. intros H1 H2. unfold split_key. rewrite split_slash_app by assumption. rewrite split_slash_none by assumption. reflexivity. Qed.
Lemma filter_none_iff (s : bytes) : filter (Ascii.eqb slash) s = [] <-> no_slash s.
Proof.
  unfold no_slash. induction s as [|c s IH]; cbn [filter]; [split; [intros _ []|reflexivity]|]. destruct (Ascii.eqb_spec slash c) as [<-|N].
  - split; [discriminate|]. intros H. exfalso. apply H. left. reflexivity.
  - rewrite IH. split; [intros H [C|C]; [apply N; symmetry; exact C|exact (H C)]|intros H C; apply H; right; exact C].
Qed.
Lemma split_key_some s k : split_key (to_key s k) <> None <-> no_slash s /\ no_slash k.
Proof.
  split.
  - intros H. unfold split_key in H. pose proof (split_slash_length (to_key s k)) as L. unfold to_key in *. rewrite filter_app in L. cbn [filter] in L.
    change (Ascii.eqb slash slash) with true in L. cbn iota in L. rewrite app_length in L. cbn [length] in L.
    destruct (split_slash (s ++ slash :: k)) as [|a [|b [|c r]]]; try congruence. cbn [length] in L.
    split; apply filter_none_iff; apply length_zero_iff_nil; lia.
  - intros (H1 & H2). rewrite split_key_join by assumption. discriminate.
Qed.

(** maps *)
Lemma get_b_in k v l : NoDup (map fst l) -> get_b k l = Some v <-> In (k, v) l.
Proof.
  induction l as [|[a w] l IH]; intros ND; cbn [get_b In]; [split; [discriminate|intros []]|]. cbn [map fst] in ND. inversion ND as [|? ? N1 N2]; subst.
  destruct (beqP a k) as [->|N].
  - split; [intros H; left; congruence|]. intros [H|H]; [congruence|]. exfalso. apply N1. apply (in_map fst) in H. exact H.
  - rewrite (IH N2). split; [auto|]. intros [H|H]; [congruence|exact H].
Qed.
Lemma get_b_del k k' l : get_b k (del_b k' l) = if beq k' k then None else get_b k l.
Proof.
  induction l as [|[a w] l IH]; cbn [del_b filter get_b fst]; [destruct (beq k' k); reflexivity|]. fold (del_b k' l). destruct (beqP a k') as [->|N]; cbn [negb].
  - rewrite IH. destruct (beq k' k); reflexivity.
  - cbn [get_b]. rewrite IH. destruct (beqP a k) as [->|N']; [|reflexivity]. destruct (beqP k' k) as [->|]; [congruence|reflexivity].
Qed.
Lemma del_b_nodup k l : NoDup (map fst l) -> NoDup (map fst (del_b k l)) /\ ~ In k (map fst (del_b k l)).
Proof.
  induction l as [|[a w] l IH]; intros ND; cbn [del_b filter map fst]; [split; [constructor|intros []]|]. fold (del_b k l). cbn [map fst] in ND. inversion ND as [|? ? N1 N2]; subst.
  destruct (IH N2) as (A & B). destruct (beqP a k) as [->|N]; cbn [negb map fst]; [split; assumption|]. split.
  - constructor; [|exact A]. intros C. apply N1. apply in_map_iff in C as (e & E & C). apply filter_In in C as (C & _). rewrite <- E. apply in_map, C.
  - intros [C|C]; [congruence|exact (B C)].
Qed.
Lemma del_b_in e k l : In e (del_b k l) -> In e l.
Proof. intros H. apply filter_In in H as (H & _). exact H. Qed.

Definition takesb (s k v : bytes) : bool := (N.of_nat (length v) <=? 2 ^ 20) && Nat.leb 2 (length k).
Lemma takesb_ok s k v : mem_takes s k v <-> takesb s k v = true.
Proof. unfold mem_takes, takesb. rewrite andb_true_iff, N.leb_le, Nat.leb_le. tauto. Qed.
Lemma mem_lw h s k r : last_write mem_takes h s k r <-> lw takesb h s k = r.
Proof. rewrite <- lw_ok. apply last_write_ext. exact takesb_ok. Qed.

Section Inv.
  Variable D : bytes -> bytes -> Prop.
  Hypothesis D_inj : forall s k s' k', D s k -> D s' k' -> to_key s k = to_key s' k' -> s = s' /\ k = k'.
  Record minv (h : list scall) (m : mem) : Prop := {
    i_free : m_held m = false;
    i_nodup : NoDup (map fst (m_blobs m));
    i_get : forall s k, D s k -> get_b (to_key s k) (m_blobs m) = lw takesb h s k;
    i_dom : forall e, In e (m_blobs m) -> exists s k, D s k /\ fst e = to_key s k;
    i_none : forall s k v, lw takesb h s k = Some v -> D s k;
    i_reads : forall s k, D s k -> m_reads m (to_key s k) = reads_of h s k;
    i_writes : forall s k, D s k -> m_writes m (to_key s k) = writes_of h s k;
    i_deletes : forall s k, D s k -> m_deletes m (to_key s k) = deletes_of h s k }.
  Lemma minv_new : minv [] mem_new.
  Proof. split; cbn; auto; [constructor|intros e []|discriminate]. Qed.

  Lemma join_eqb s k s' k' : D s k -> D s' k' -> beq (to_key s k) (to_key s' k') = beq s s' && beq k k'.
  Proof.
    intros H1 H2. destruct (beqP (to_key s k) (to_key s' k')) as [E|N].
    - destruct (D_inj _ _ _ _ H1 H2 E) as (-> & ->). rewrite !beq_refl. reflexivity.
    - destruct (beqP s s') as [->|]; [|reflexivity]. destruct (beqP k k') as [->|]; [congruence|reflexivity].
  Qed.
  Lemma incr_join s k s' k' f : D s k -> D s' k' -> incr (to_key s k) f (to_key s' k') = if beq s s' && beq k k' then S (f (to_key s' k')) else f (to_key s' k').
  Proof.
    intros H1 H2. unfold incr. rewrite (beq_sym (to_key s' k')), join_eqb by assumption. reflexivity.
  Qed.
  Lemma step_map h m c : minv h m -> (forall s k, names c s k -> D s k) ->
    match c with PUsage _ | PDir _ | PCreate _ _ _ => False | _ => True end ->
    minv (c :: h) (fst (mem_step m c)) /\ mem_fits h c (snd (mem_step m c)).
  Proof.
    intros [F ND G DM NO RD WR DL] HD HC.
    destruct c as [s k|s k v|s k|s|s|s k v]; try contradiction; cbn [mem_step mem_fits].
    - assert (Hd : D s k) by (apply HD; cbn; auto). rewrite F. cbn [fst snd]. split.
      + split; cbn [m_held m_blobs m_reads m_writes m_deletes]; try assumption; cbn [lw]; try assumption; try reflexivity.
        intros s' k' H'. rewrite incr_join by assumption. unfold reads_of. cbn [filter]. destruct (beq s s' && beq k k'); cbn [length]; rewrite (RD _ _ H'); reflexivity.
      + rewrite (G _ _ Hd). destruct (lw takesb h s k) as [v|] eqn:E; [left; exists v|right]; split; auto; apply mem_lw; exact E.
    - assert (Hd : D s k) by (apply HD; cbn; auto). assert (T : takesb s k v = negb (max_blob <? N.of_nat (length v)) && negb (Nat.ltb (length k) 2)).
      { unfold takesb, max_blob. rewrite N.ltb_antisym, negb_involutive, Nat.ltb_antisym, negb_involutive. reflexivity. }
      destruct (max_blob <? N.of_nat (length v)) eqn:E1.
      { cbn [fst snd]. cbn [negb andb] in T. split; [|right; left; split; [apply N.ltb_lt in E1; unfold max_blob in E1; lia|reflexivity]].
        split; try assumption; cbn [lw]; [intros s' k' H'; rewrite T, andb_false_r; auto|intros s' k' w; rewrite T, andb_false_r; apply NO|].
        intros s' k' H'. rewrite (WR _ _ H'). unfold writes_of. cbn [filter]. apply N.ltb_lt in E1. unfold max_blob in E1. destruct (N.leb_spec (N.of_nat (length v)) (2 ^ 20)); [lia|]. rewrite andb_false_r. reflexivity. }
      apply N.ltb_ge in E1. destruct (Nat.ltb_spec (length k) 2) as [E2|E2].
      { cbn [fst snd]. rewrite andb_false_r in T. split; [|right; right; unfold max_blob in E1; auto].
        split; try assumption; cbn [lw]; [intros s' k' H'; rewrite T, andb_false_r; auto|intros s' k' w; rewrite T, andb_false_r; apply NO|].
        intros s' k' H'. rewrite (WR _ _ H'). unfold writes_of. cbn [filter]. destruct (Nat.leb_spec 2 (length k)); [lia|]. rewrite andb_false_r. reflexivity. }
      rewrite F. cbn [fst snd]. cbn [negb andb] in T. destruct (del_b_nodup (to_key s k) _ ND) as (N1 & N2). split; [|left; split; [apply takesb_ok, T|reflexivity]].
      split; cbn [m_held m_blobs m_reads m_writes m_deletes lw map fst]; try assumption; try reflexivity.
      + constructor; assumption.
      + intros s' k' H'. cbn [get_b]. rewrite get_b_del, join_eqb, T, andb_true_r by assumption. destruct (beq s s' && beq k k'); [reflexivity|apply G, H'].
      + intros e [<-|He]; [exists s, k; auto|apply DM; eapply del_b_in; eauto].
      + intros s' k' w. destruct (beqP s s') as [<-|]; [destruct (beqP k k') as [<-|]; [intros _; exact Hd|]|]; cbn [andb]; apply NO.
      + intros s' k' H'. rewrite incr_join by assumption. unfold writes_of. cbn [filter]. destruct (N.leb_spec (N.of_nat (length v)) (2 ^ 20)); [|unfold max_blob in E1; lia].
        destruct (Nat.leb_spec 2 (length k)); [|lia]. rewrite !andb_true_r. destruct (beq s s' && beq k k'); cbn [length]; rewrite (WR _ _ H'); reflexivity.
    - assert (Hd : D s k) by (apply HD; cbn; auto). rewrite F. cbn [fst snd]. split; [|reflexivity]. destruct (del_b_nodup (to_key s k) _ ND) as (N1 & N2).
      split; cbn [m_held m_blobs m_reads m_writes m_deletes lw]; try assumption; try reflexivity.
      + intros s' k' H'. rewrite get_b_del, join_eqb by assumption. destruct (beq s s' && beq k k'); [reflexivity|apply G, H'].
      + intros e He. apply DM. eapply del_b_in; eauto.
      + intros s' k' w. destruct (beqP s s') as [<-|]; [destruct (beqP k k') as [<-|]; [intros _; exact Hd|]|]; cbn [andb]; apply NO.
      + intros s' k' H'. rewrite incr_join by assumption. unfold deletes_of. cbn [filter]. destruct (beq s s' && beq k k'); cbn [length]; rewrite (DL _ _ H'); reflexivity.
  Qed.

  Section NoSlash.
    Hypothesis D_slash : forall s k, D s k -> no_slash s /\ no_slash k.
    Definition mine (s : bytes) (e : bytes * bytes) : list (bytes * bytes) :=
      match split_key (fst e) with Some (s', k) => if beq s s' then [(k, snd e)] else [] | None => [] end.
    Lemma mine_blobs h m s : minv h m -> blobs_of h s (flat_map (mine s) (m_blobs m)).
    Proof.
      intros [F ND G DM NO _ _ _]. split.
      - clear G. induction (m_blobs m) as [|e l IH]; cbn [flat_map map]; [constructor|]. cbn [map] in ND. inversion ND as [|? ? N1 N2]; subst.
        assert (DM' : forall e, In e l -> exists s k, D s k /\ fst e = to_key s k) by (intros x Hx; apply DM; right; exact Hx).
        rewrite map_app. destruct (DM e (or_introl eq_refl)) as (s0 & k0 & D0 & E0). destruct (D_slash _ _ D0) as (A0 & B0). unfold mine at 1. rewrite E0, (split_key_join _ _ A0 B0).
        destruct (beqP s s0) as [->|N]; [|apply IH; assumption]. cbn [map app fst]. constructor; [|apply IH; assumption].
        intros C. apply in_map_iff in C as ((k1 & v1) & E1 & C). cbn [fst] in E1. subst k1. apply in_flat_map in C as (x & Hx & C).
        destruct (DM' _ Hx) as (s1 & k1 & D1 & E1). destruct (D_slash _ _ D1) as (A1 & B1). unfold mine in C. rewrite E1, (split_key_join _ _ A1 B1) in C.
        destruct (beqP s0 s1) as [->|]; [|contradiction]. destruct C as [C|[]]. injection C as -> _. apply N1. rewrite E0, <- E1. apply in_map, Hx.
      - intros k v. rewrite mem_lw, in_flat_map. split.
        + intros (x & Hx & C). destruct (DM _ Hx) as (s1 & k1 & D1 & E1). destruct (D_slash _ _ D1) as (A1 & B1). unfold mine in C. rewrite E1, (split_key_join _ _ A1 B1) in C.
          destruct (beqP s s1) as [->|]; [|contradiction]. destruct C as [C|[]]. injection C as -> <-. rewrite <- (G _ _ D1). apply get_b_in; [exact ND|]. rewrite <- E1. destruct x; exact Hx.
        + intros H. pose proof (NO _ _ _ H) as Dk. destruct (D_slash _ _ Dk) as (A1 & B1). exists (to_key s k, v). split.
          * apply get_b_in; [exact ND|]. rewrite (G _ _ Dk). exact H.
          * unfold mine. cbn [fst snd]. rewrite (split_key_join _ _ A1 B1), beq_refl. left. reflexivity.
    Qed.
    Lemma dom_tail {A} (P : A -> Prop) x l : (forall e, In e (x :: l) -> P e) -> P x /\ forall e, In e l -> P e.
    Proof. intros H. split; [apply H; left; reflexivity|intros e He; apply H; right; exact He]. Qed.
    Lemma usage_mine s l : (forall e, In e l -> exists s k, D s k /\ fst e = to_key s k) ->
      let f := filter (fun e => starts (to_key s []) (fst e)) l in
      length f = length (flat_map (mine s) l) /\ list_sum (map (fun e => length (snd e)) f) = list_sum (map (fun e => length (snd e)) (flat_map (mine s) l)).
    Proof.
      cbn zeta. induction l as [|e l IH]; intros DM; cbn [filter flat_map]; [split; reflexivity|].
      apply dom_tail in DM as ((s0 & k0 & D0 & E0) & DM'). specialize (IH DM') as (I1 & I2). destruct (D_slash _ _ D0) as (A0 & B0).
      assert (M : mine s e = if beq s s0 then [(k0, snd e)] else []) by (unfold mine; rewrite E0, (split_key_join _ _ A0 B0); reflexivity).
      rewrite M, E0. destruct (beqP s s0) as [->|N].
      - replace (starts (to_key s0 []) (to_key s0 k0)) with true by (symmetry; apply starts_ok; exists k0; reflexivity).
        split; [cbn [length app]; congruence|]. unfold list_sum in *. cbn [map app snd fold_right]. rewrite I2. reflexivity.
      - destruct (starts (to_key s []) (to_key s0 k0)) eqn:E; [|cbn [app]; split; assumption].
        exfalso. apply starts_ok in E as (r & E). symmetry in E. destruct (join_one _ _ _ _ A0 B0 E). congruence.
    Qed.
    Lemma dir_mine h m s : forall l, (forall e, In e l -> exists s k, D s k /\ fst e = to_key s k) -> minv h m ->
      dir_lines m s l = Some (map (fun e => line_of h s (fst e) (snd e)) (flat_map (mine s) l)).
    Proof.
      intros l DM HI. induction l as [|e l IH]; cbn [dir_lines flat_map]; [reflexivity|].
      apply dom_tail in DM as ((s0 & k0 & D0 & E0) & DM'). specialize (IH DM'). destruct (D_slash _ _ D0) as (A0 & B0). destruct e as (ke & ve). cbn [fst] in E0. subst ke.
      unfold mine at 1. cbn [fst snd]. rewrite (split_key_join _ _ A0 B0), IH. destruct (beqP s s0) as [->|N]; [|reflexivity]. cbn [map app fst snd]. f_equal. f_equal.
      unfold dir_line, line_of. rewrite (i_reads _ _ HI _ _ D0), (i_writes _ _ HI _ _ D0), (i_deletes _ _ HI _ _ D0). reflexivity.
    Qed.
  End NoSlash.
End Inv.

(** order of strings *)
Lemma bytes_lt_le : forall a b, bytes_lt a b = false -> lex_le b a.
Proof.
  induction a as [|c a IH]; intros [|d b] H; cbn [bytes_lt] in H; try apply lex_nil; try discriminate.
  apply orb_false_iff in H as (H1 & H2). apply N.ltb_ge in H1. destruct (N.eq_dec (N_of_ascii d) (N_of_ascii c)) as [E|N].
  - assert (c = d) by (rewrite <- (ascii_N_embedding c), <- (ascii_N_embedding d); congruence). subst d.
    rewrite Ascii.eqb_refl in H2. apply lex_same, IH, H2.
  - apply lex_less. lia.
Qed.
Lemma lex_trans a b c : lex_le a b -> lex_le b c -> lex_le a c.
Proof.
  intros H. revert c. induction H as [b|x y a b L|x a b H IH]; intros c H2; [apply lex_nil| |].
  - inversion H2; subst; apply lex_less; [lia|exact L].
  - inversion H2; subst; [apply lex_less; assumption|apply lex_same, IH; assumption].
Qed.
Lemma bytes_lt_true : forall a b, bytes_lt a b = true -> lex_le a b.
Proof.
  induction a as [|c a IH]; intros [|d b] H; cbn [bytes_lt] in H; try apply lex_nil; try discriminate. apply orb_true_iff in H as [H|H].
  - apply lex_less. apply N.ltb_lt, H.
  - apply andb_true_iff in H as (H1 & H2). apply Ascii.eqb_eq in H1. subst d. apply lex_same, IH, H2.
Qed.
Lemma insert_by_lex x : forall l, StronglySorted lex_le l -> StronglySorted lex_le (insert_by bytes_lt x l).
Proof.
  induction l as [|y l IH]; intros H; cbn [insert_by]; [repeat constructor|]. inversion H as [|? ? H1 H2]; subst.
  destruct (bytes_lt y x) eqn:E.
  - constructor; [apply IH, H1|]. apply Forall_forall. intros z Hz. eapply Permutation_in in Hz; [|apply insert_by_perm]. destruct Hz as [<-|Hz]; [apply bytes_lt_true, E|]. rewrite Forall_forall in H2. auto.
  - apply bytes_lt_le in E. constructor; [exact H|]. constructor; [exact E|]. rewrite Forall_forall in H2 |- *. intros z Hz. eapply lex_trans; eauto.
Qed.
Lemma sort_lex l : StronglySorted lex_le (sort_by bytes_lt l).
Proof. induction l; cbn [sort_by]; [constructor|]. apply insert_by_lex. assumption. Qed.

(** runs *)
Lemma c72_map (D : bytes -> bytes -> Prop) : (forall s k s' k', D s k -> D s' k' -> to_key s k = to_key s' k' -> s = s' /\ k = k') ->
  forall cs h m, minv D h m -> (forall c, In c cs -> match c with PUsage _ | PDir _ | PCreate _ _ _ => False | _ => True end) ->
  (forall c s k, In c cs -> names c s k -> D s k) -> all_fit mem_fits h cs (snd (run_store mem_step m cs)).
Proof.
  intros DI cs. induction cs as [|c cs IH]; intros h m HI HC HD; cbn [run_store]; [exact Logic.I|].
  destruct (step_map D DI h m c HI) as (I1 & F1); [intros s k; apply HD; left; reflexivity|apply HC; left; reflexivity|].
  destruct (mem_step m c) as (m', a) eqn:E. destruct (run_store mem_step m' cs) as (m2, r) eqn:E2. cbn [fst snd] in *. cbn [all_fit]. split; [exact F1|].
  specialize (IH (c :: h) m' I1). rewrite E2 in IH. apply IH; [intros x Hx; apply HC; right; exact Hx|intros x s k Hx; apply HD; right; exact Hx].
Qed.
Lemma minv_cons D h m c : match c with PUsage _ | PDir _ => True | _ => False end -> minv D h m -> minv D (c :: h) m.
Proof. intros Hc [? ? ? ? ? ? ? ?]. destruct c; try contradiction; split; assumption. Qed.
Definition D1 (s k : bytes) : Prop := no_slash s /\ no_slash k.
Lemma D1_inj s k s' k' : D1 s k -> D1 s' k' -> to_key s k = to_key s' k' -> s = s' /\ k = k'.
Proof. intros (A & _) (B & _). apply join_sets; assumption. Qed.
Lemma c72_all : forall cs h m, minv D1 h m -> (forall c, In c cs -> match c with PCreate _ _ _ => False | _ => True end) ->
  (forall c s k, In c cs -> names c s k -> no_slash s /\ no_slash k) -> all_fit mem_fits h cs (snd (run_store mem_step m cs)).
Proof.
  intros cs. induction cs as [|c cs IH]; intros h m HI HC HD; cbn [run_store]; [exact Logic.I|].
  assert (S1 : minv D1 (c :: h) (fst (mem_step m c)) /\ mem_fits h c (snd (mem_step m c))).
  { assert (U : match c with PUsage _ | PDir _ => True | _ => False end \/ match c with PUsage _ | PDir _ | PCreate _ _ _ => False | _ => True end).
    { specialize (HC c (or_introl eq_refl)). destruct c; auto. }
    destruct U as [U|U]; [|apply step_map; [exact D1_inj|exact HI|intros s k; apply HD; left; reflexivity|exact U]].
    pose proof (fun s => mine_blobs D1 (fun s k H => H) h m s) as MB.
    destruct c as [| | |s|s|]; try contradiction; cbn [mem_step]; rewrite (i_free _ _ _ HI).
    - cbn [fst snd]. split; [apply minv_cons; [exact Logic.I|exact HI]|]. destruct (usage_mine D1 (fun s k H => H) s (m_blobs m) (i_dom _ _ _ HI)) as (U1 & U2).
      exists (flat_map (mine s) (m_blobs m)). split; [apply MB, HI|]. rewrite U1, U2. reflexivity.
    - rewrite (dir_mine D1 (fun s k H => H) h m s (m_blobs m) (i_dom _ _ _ HI) HI). cbn [fst snd]. split; [apply minv_cons; [exact Logic.I|exact HI]|].
      exists (flat_map (mine s) (m_blobs m)). eexists. split; [apply MB, HI|]. split; [reflexivity|]. split; [apply sort_lex|apply sort_by_perm]. }
  destruct (mem_step m c) as (m', a) eqn:E. destruct (run_store mem_step m' cs) as (m2, r) eqn:E2. cbn [fst snd] in *. cbn [all_fit]. split; [apply S1|].
  specialize (IH (c :: h) m' (proj1 S1)). rewrite E2 in IH. apply IH; [intros x Hx; apply HC; right; exact Hx|intros x s k Hx; apply HD; right; exact Hx].
Qed.
Lemma c72_mem cs : (forall c, In c cs -> match c with PCreate _ _ _ => False | _ => True end) ->
  (forall c s k, In c cs -> names c s k -> no_slash s /\ no_slash k) -> all_fit mem_fits [] cs (snd (run_store mem_step mem_new cs)).
Proof. intros H1 H2. apply c72_all; [apply minv_new|exact H1|exact H2]. Qed.
Lemma c72_calls cs : (forall c, In c cs -> match c with PUsage _ | PDir _ | PCreate _ _ _ => False | _ => True end) ->
  (forall c s k c' s' k', In c cs -> names c s k -> In c' cs -> names c' s' k' -> s ++ slash :: k = s' ++ slash :: k' -> s = s' /\ k = k') ->
  all_fit mem_fits [] cs (snd (run_store mem_step mem_new cs)).
Proof.
  intros H1 H2. apply (c72_map (fun s k => exists c, In c cs /\ names c s k)).
  - intros s k s' k' (c & A & B) (c' & A' & B'). exact (H2 _ _ _ _ _ _ A B A' B').
  - apply minv_new.
  - exact H1.
  - intros c s k A B. exists c. auto.
Qed.
Lemma c72_clash s k s' k' : s ++ slash :: k = s' ++ slash :: k' -> (s, k) <> (s', k') -> (In slash s /\ In slash k') \/ (In slash s' /\ In slash k).
Proof.
  intros E N. destruct (join_clash _ _ _ _ E) as [(-> & ->)|[(t & -> & ->)|(t & -> & ->)]]; [congruence|right|left]; split; apply in_or_app; right; left; reflexivity.
Qed.

(** Dir *)
Lemma dir_lines_none m s l : dir_lines m s l = None <-> exists e, In e l /\ split_key (fst e) = None.
Proof.
  induction l as [|[k v] l IH]; cbn [dir_lines In]; [split; [discriminate|intros (e & [] & _)]|]. destruct (split_key k) as [[a b]|] eqn:E.
  - destruct (dir_lines m s l) as [ls|].
    + split; [discriminate|]. intros (e & [<-|He] & Hn); [cbn in Hn; congruence|]. assert (C : Some ls = None) by (apply IH; exists e; auto). discriminate.
    + split; [intros _; destruct (proj1 IH eq_refl) as (e & He & Hn); exists e; auto|reflexivity].
  - split; [intros _; exists (k, v); auto|reflexivity].
Qed.
Definition slashes (b : bytes) : nat := length (filter (Ascii.eqb slash) b).
Lemma to_key_slashes s k : (1 <= slashes (to_key s k))%nat.
Proof. unfold slashes, to_key. rewrite filter_app, app_length. cbn [filter]. rewrite Ascii.eqb_refl. cbn [length]. lia. Qed.
Lemma split_key_none b : (1 <= slashes b)%nat -> split_key b = None <-> (2 <= slashes b)%nat.
Proof.
  unfold slashes. intros H. pose proof (split_slash_length b) as L. unfold split_key. destruct (split_slash b) as [|x [|y [|z r]]]; cbn [length] in L; try lia; split; intros; try congruence; lia.
Qed.
Lemma blobs_slashes cs : forall m, (forall e, In e (m_blobs m) -> (1 <= slashes (fst e))%nat) -> forall e, In e (m_blobs (fst (run_store mem_step m cs))) -> (1 <= slashes (fst e))%nat.
Proof.
  induction cs as [|c cs IH]; intros m H; cbn [run_store]; [exact H|]. destruct (mem_step m c) as (m', a) eqn:E. specialize (IH m').
  destruct (run_store mem_step m' cs) as (m2, r). cbn [fst] in *. apply IH. intros e He.
  destruct c as [s k|s k v|s k|s|s|s k v]; cbn [mem_step] in E.
  - destruct (m_held m); injection E as <- _; auto.
  - destruct (max_blob <? N.of_nat (length v)); [injection E as <- _; auto|]. destruct (Nat.ltb (length k) 2); [injection E as <- _; auto|]. destruct (m_held m); injection E as <- _; auto.
    destruct He as [<-|He]; [apply to_key_slashes|apply H; eapply del_b_in; eauto].
  - destruct (m_held m); injection E as <- _; auto. apply H. eapply del_b_in; eauto.
  - destruct (m_held m); injection E as <- _; auto.
  - destruct (m_held m); [injection E as <- _; auto|]. destruct (dir_lines m s (m_blobs m)); injection E as <- _; auto.
  - injection E as <- _; auto.
Qed.
Lemma c72_dir cs s : let m := fst (run_store mem_step mem_new cs) in m_held m = false ->
  (snd (mem_step m (PDir s)) = APanic <-> exists k v, In (k, v) (m_blobs m) /\ (2 <= slashes k)%nat) /\
  (snd (mem_step m (PDir s)) = APanic -> m_held (fst (mem_step m (PDir s))) = true).
Proof.
  intros m F. assert (HS : forall e, In e (m_blobs m) -> (1 <= slashes (fst e))%nat) by (apply blobs_slashes; intros e []).
  cbn [mem_step]. rewrite F. destruct (dir_lines m s (m_blobs m)) as [ls|] eqn:E; cbn [fst snd]; (split; [|intros; try discriminate; reflexivity]).
  - split; [discriminate|]. intros (k & v & Hi & Hk). assert (C : dir_lines m s (m_blobs m) = None); [|congruence]. apply dir_lines_none. exists (k, v). split; [exact Hi|]. apply split_key_none; [exact (HS _ Hi)|exact Hk].
  - apply dir_lines_none in E as ((k, v) & Hi & Hk). split; [intros _|reflexivity]. exists k, v. split; [exact Hi|]. apply split_key_none; [exact (HS _ Hi)|exact Hk].
Qed.
Lemma c72_stuck cs : forall m, m_held m = true ->
  fst (run_store mem_step m cs) = m /\
  Forall2 (fun c a => match c with PSet s k v => (mem_takes s k v -> a = AHang) /\ a <> AOk | PCreate _ _ _ => True | _ => a = AHang end) cs (snd (run_store mem_step m cs)).
Proof.
  induction cs as [|c cs IH]; intros m F; cbn [run_store]; [split; [reflexivity|constructor]|].
  assert (S1 : fst (mem_step m c) = m /\ match c with PSet s k v => (mem_takes s k v -> snd (mem_step m c) = AHang) /\ snd (mem_step m c) <> AOk | PCreate _ _ _ => True | _ => snd (mem_step m c) = AHang end).
  { destruct c as [s k|s k v|s k|s|s|s k v]; cbn [mem_step]; rewrite ?F; try (split; [reflexivity|exact Logic.I]); try (split; reflexivity). unfold mem_takes, max_blob.
    destruct (N.ltb_spec 1048576 (N.of_nat (length v))); cbn [fst snd]; [split; [reflexivity|split; [intros; lia|discriminate]]|].
    destruct (Nat.ltb_spec (length k) 2); cbn [fst snd]; (split; [reflexivity|split; [intros; first [lia|reflexivity]|discriminate]]). }
  destruct (mem_step m c) as (m', a). cbn [fst snd] in S1. destruct S1 as (-> & S1). specialize (IH m F). destruct (run_store mem_step m cs) as (m2, r). cbn [fst snd] in *.
  split; [apply IH|]. constructor; [exact S1|apply IH].
Qed.
Lemma record_no_slash r : generated_record r -> no_slash (record_key r).
Proof.
  assert (AN : forall p, generated p -> ~ In slash p).
  { intros p Hp C. apply generated_shape in Hp as (_ & Hp). rewrite Forall_forall in Hp. specialize (Hp _ C). unfold letter_or_digit in Hp. cbn in Hp. lia. }
  destruct r as [p i|p| |]; cbn [record_key generated_record]; intros H C.
  - unfold segment_key in C. apply in_app_iff in C as [C|[C|C]]; [exact (AN _ H C)|discriminate|].
    revert C. apply digit_not; [apply decimal6_digit|cbn; lia].
  - exact (AN _ H C).
  - cbn in C. repeat (destruct C as [C|C]; [discriminate|]). exact C.
  - cbn in C. repeat (destruct C as [C|C]; [discriminate|]). exact C.
Qed.
Lemma c72_records cs : (forall c, In c cs -> match c with PUsage _ | PDir _ | PCreate _ _ _ => False | _ => True end) ->
  (forall c s k, In c cs -> names c s k -> exists r, generated_record r /\ k = record_key r) ->
  all_fit mem_fits [] cs (snd (run_store mem_step mem_new cs)).
Proof.
  intros H1 H2. apply c72_calls; [exact H1|]. intros c s k c' s' k' A B A' B' E.
  destruct (H2 _ _ _ A B) as (r & G & ->). destruct (H2 _ _ _ A' B') as (r' & G' & ->). apply join_keys; auto using record_no_slash.
Qed.

(** bolt *)
Section Bolt.
  Variable refuses : bytes -> bytes -> bytes -> bool.
  Let okb s k v := negb (refuses s k v).
  Let ok s k v := refuses s k v = false.
  Lemma bolt_lw h s k r : last_write ok h s k r <-> lw okb h s k = r.
  Proof. rewrite <- lw_ok. apply last_write_ext. intros. unfold ok, okb. destruct (refuses s0 k0 v); cbn; intuition congruence. Qed.
  Lemma bucket_put_get d s k v s' k' : bucket (put_bucket d s (bucket_put (bucket d s) k v)) s' k' = if beq s s' && beq k k' then v else bucket d s' k'.
  Proof.
    unfold bucket at 1, put_bucket. destruct (beqP s s') as [<-|N]; cbn [andb]; [|reflexivity]. unfold bucket_put. destruct (beq k k'); reflexivity.
  Qed.
  Lemma bolt_step_ok h d c : (forall s k, bucket d s k = lw okb h s k) ->
    (forall s k, bucket (fst (bolt_step refuses d c)) s k = lw okb (c :: h) s k) /\ bolt_fits ok h c (snd (bolt_step refuses d c)).
  Proof.
    intros HB. assert (HG : forall s k, match d s with None => None | Some b => b k end = lw okb h s k) by (intros s k; rewrite <- HB; unfold bucket; destruct (d s); reflexivity).
    destruct c as [s k|s k v|s k|s|s|s k v]; cbn [bolt_step lw bolt_fits]; try (split; [exact HB|exact Logic.I]).
    - split; [exact HB|]. cbn [snd]. specialize (HG s k). rewrite !bolt_lw. destruct (d s) as [b|]; [destruct (b k) as [v|]|]; [left; exists v; split; [apply bolt_lw; congruence|reflexivity]|right; split; congruence|right; split; congruence].
    - unfold okb at 1, ok. destruct (refuses s k v) eqn:E; cbn [fst snd negb]; split.
      + intros s' k'. rewrite andb_false_r. apply HB.
      + right. split; [congruence|reflexivity].
      + intros s' k'. rewrite bucket_put_get, andb_true_r. destruct (beq s s' && beq k k'); [reflexivity|apply HB].
      + left. split; reflexivity.
    - split; [|destruct (d s); reflexivity]. intros s' k'. destruct (d s) as [b|] eqn:E.
      + assert (Eb : b = bucket d s) by (unfold bucket; rewrite E; reflexivity). rewrite Eb. cbn [fst]. rewrite bucket_put_get. destruct (beq s s' && beq k k'); [reflexivity|apply HB].
      + cbn [fst]. destruct (beqP s s') as [<-|]; [|apply HB]. destruct (beqP k k') as [<-|]; cbn [andb]; [|apply HB]. unfold bucket. rewrite E. reflexivity.
    - rewrite HB. destruct (lw okb h s k) as [w|] eqn:El; cbn [fst snd].
      + split; [|left; split; [exists w; apply bolt_lw, El|reflexivity]]. intros s' k'. rewrite HB. destruct (beqP s s') as [<-|]; [|reflexivity]. destruct (beqP k k') as [<-|]; [|reflexivity]. cbn [andb].
        rewrite El. destruct (okb s k v); reflexivity.
      + unfold okb at 1, ok. destruct (refuses s k v) eqn:E; cbn [fst snd negb]; split.
        * intros s' k'. rewrite andb_false_r. apply HB.
        * right. right. split; [apply bolt_lw, El|split; [congruence|reflexivity]].
        * intros s' k'. rewrite bucket_put_get, andb_true_r. destruct (beqP s s') as [<-|]; [|apply HB]. destruct (beqP k k') as [<-|]; [|apply HB]. cbn [andb]. rewrite El. reflexivity.
        * right. left. split; [apply bolt_lw, El|split; reflexivity].
  Qed.
  Lemma bolt_run : forall cs h d, (forall s k, bucket d s k = lw okb h s k) -> all_fit (bolt_fits ok) h cs (snd (run_store (bolt_step refuses) d cs)).
  Proof.
    induction cs as [|c cs IH]; intros h d HB; cbn [run_store]; [exact Logic.I|]. destruct (bolt_step_ok h d c HB) as (B1 & F1).
    destruct (bolt_step refuses d c) as (d', a). specialize (IH (c :: h) d' B1). destruct (run_store (bolt_step refuses) d' cs) as (d2, r). cbn [snd fst] in *. split; assumption.
  Qed.
End Bolt.
Lemma c72_bolt refuses cs : all_fit (bolt_fits (fun s k v => refuses s k v = false)) [] cs (snd (run_store (bolt_step refuses) bolt_new cs)).
Proof. apply bolt_run. intros s k. reflexivity. Qed.

(** checks of the test store *)
Lemma c72_after n : forall cs i, ask_all [mkCheck (fun now _ _ => Nat.eqb now n) i] cs = map (fun j => negb (Nat.eqb j n)) (seq i (length cs)).
Proof.
  induction cs as [|(s, k) cs IH]; intros i; cbn [ask_all length seq map]; [reflexivity|]. cbn [ask k_fails k_calls]. destruct (Nat.eqb i n); cbn [negb]; rewrite IH; reflexivity.
Qed.
Definition called (c : check) : check := mkCheck (k_fails c) (S (k_calls c)).
Lemma c72_ask l s k :
  (snd (ask l s k) = true /\ fst (ask l s k) = map called l /\ forall c, In c l -> k_fails c (k_calls c) s k = false) \/
  (exists a c b, l = a ++ c :: b /\ (forall x, In x a -> k_fails x (k_calls x) s k = false) /\ k_fails c (k_calls c) s k = true /\
     snd (ask l s k) = false /\ fst (ask l s k) = map called (a ++ [c]) ++ b).
Proof.
  induction l as [|c l IH]; cbn [ask]; [left; repeat split; intros c []|]. destruct (k_fails c (k_calls c) s k) eqn:E.
  - right. exists [], c, l. cbn. repeat split; auto. intros x [].
  - destruct (ask l s k) as (l', ok). cbn [fst snd] in *. destruct IH as [(-> & -> & H)|(a & d & b & -> & H1 & H2 & -> & ->)].
    + left. repeat split. intros x [<-|Hx]; auto.
    + right. exists (c :: a), d, b. repeat split; auto. intros x [<-|Hx]; auto.
Qed.
Lemma c72_pct n rng : forall cs i, ask_all [mkCheck (fun i _ _ => rng i mod 100 <? n) i] cs = map (fun j => n <=? rng j mod 100) (seq i (length cs)).
Proof.
  induction cs as [|(s, k) cs IH]; intros i; cbn [ask_all length seq map]; [reflexivity|]. cbn [ask k_fails k_calls]. rewrite (N.leb_antisym (rng i mod 100) n). destruct (rng i mod 100 <? n); cbn [negb]; rewrite IH; reflexivity.
Qed.
