(** Lists made, replaced and deleted while they are used: the answers are those of one order. *)
From Coq Require Import Strings.String.
From Verif.Lib Require Import Prelude ListAux ListLemmas.
From Verif.Model Require Import MakeDrop.
From Verif.Spec Require Import MakeDropSpec.
Open Scope nat_scope.

Lemma nth_upd_f {A} (f : A -> A) k l i : nth_error (upd_nth k f l) i = if i =? k then option_map f (nth_error l i) else nth_error l i.
Proof.
  revert k i. induction l as [|x l IH]; intros [|k] [|i]; cbn [upd_nth nth_error Nat.eqb option_map]; try reflexivity; [destruct (i =? k); reflexivity|apply IH].
Qed.
Lemma upd_len {A} (f : A -> A) k l : length (upd_nth k f l) = length l.
Proof. revert k. induction l as [|x l IH]; intros [|k]; cbn; congruence. Qed.

(** ** Effects *)
Lemma at_app id h h' : at_id id (h ++ h') = fold_left (fun s e => after_eff id s (snd e)) h' (at_id id h).
Proof. apply fold_left_app. Qed.
Lemma at_snoc id h x : at_id id (h ++ [x]) = after_eff id (at_id id h) (snd x).
Proof. rewrite at_app. reflexivity. Qed.
Lemma legal_snoc h x : legal h -> fits (snd x) (at_id (target (snd x)) h) -> legal (h ++ [x]).
Proof.
  intros L F h1 y h2 E. destruct h2 as [|z h2] using rev_ind.
  - apply app_inj_tail in E as (-> & ->). exact F.
  - rewrite app_comm_cons, app_assoc in E. apply app_inj_tail in E as (-> & ->). eapply L. reflexivity.
Qed.
Definition kills (id : string) (e : eff) : Prop := e = E_gone id \/ exists o x, e = E_put id o x.
Lemma after_other id e s : target e <> id -> after_eff id s e = s.
Proof. intros H. unfold after_eff. destruct (string_dec (target e) id); [contradiction|reflexivity]. Qed.
Lemma after_kills id e s s' : kills id e -> after_eff id s e = after_eff id s' e.
Proof. unfold after_eff. intros [->|(o & x & ->)]; cbn [target]; destruct (string_dec id id); congruence. Qed.
(** a call put in before an effect that takes its list away changes nothing later *)
Lemma at_ins i id h1 x y h2 : target (snd x) = i -> kills i (snd y) -> at_id id (h1 ++ x :: y :: h2) = at_id id (h1 ++ y :: h2).
Proof.
  intros T K. rewrite !at_app. cbn [fold_left]. f_equal. destruct (string_dec i id) as [->|N].
  - apply after_kills, K.
  - f_equal. apply after_other. congruence.
Qed.
(** the two ways a list with one more element can be cut *)
Lemma cut_ins {A} (h1 : list A) x h2 a y b : h1 ++ x :: h2 = a ++ y :: b ->
  (exists z, h1 = a ++ y :: z /\ b = z ++ x :: h2) \/ (a = h1 /\ y = x /\ b = h2) \/ (exists z, a = h1 ++ x :: z /\ h2 = z ++ y :: b).
Proof.
  revert a. induction h1 as [|u h1 IH]; intros [|v a] E; cbn in E.
  - injection E as -> ->. right. left. auto.
  - injection E as -> ->. right. right. exists a. auto.
  - injection E as -> <-. left. exists h1. auto.
  - injection E as -> E. destruct (IH _ E) as [(z & -> & ->)|[(-> & -> & ->)|(z & -> & ->)]].
    + left. exists z. auto.
    + right. left. auto.
    + right. right. exists z. auto.
Qed.
Lemma legal_ins i h1 x y h2 : legal (h1 ++ y :: h2) -> target (snd x) = i -> kills i (snd y) -> fits (snd x) (at_id i h1) -> legal (h1 ++ x :: y :: h2).
Proof.
  intros L T K F a z b E. apply cut_ins in E as [(w & -> & ->)|[(-> & -> & ->)|(w & -> & E)]].
  - apply (L a z (w ++ y :: h2)). rewrite <- app_assoc. reflexivity.
  - rewrite T. exact F.
  - destruct w as [|v w]; cbn in E.
    + injection E as -> ->. destruct K as [E|(o & u & E)]; rewrite E; exact Logic.I.
    + injection E as -> ->. rewrite (at_ins i _ h1 x v w T K). apply (L (h1 ++ v :: w) z b). rewrite <- app_assoc. reflexivity.
Qed.
Lemma effects_app i h h' : effects i (h ++ h') = effects i h ++ effects i h'.
Proof. unfold effects. rewrite filter_app, map_app. reflexivity. Qed.
Lemma effects_cons i x h : effects i (x :: h) = (if fst x =? i then [snd x] else []) ++ effects i h.
Proof. unfold effects. simpl. destruct (fst x =? i); reflexivity. Qed.
Lemma effects_none i h : ~ In i (map fst h) -> effects i h = [].
Proof.
  induction h as [|x h IH]; intros N; [reflexivity|]. rewrite effects_cons. cbn [map In] in N.
  destruct (Nat.eqb_spec (fst x) i) as [E|_]; [exfalso; apply N; left; exact E|]. apply IH. intros H. apply N. right. exact H.
Qed.

(** ** Who comes before whom *)
Lemma before_snoc tr l i j : before (tr ++ [l]) i j -> before tr i j \/ (l = Came j /\ In (Answered i) tr).
Proof.
  intros (t1 & t2 & E & H1 & H2). destruct t2 as [|z t2 _] using rev_ind; [destruct H2|].
  rewrite app_assoc in E. apply app_inj_tail in E as (-> & ->). apply in_app_or in H2 as [H2|[->|[]]].
  - left. exists t1, t2. auto.
  - right. split; [reflexivity|]. apply in_or_app. left. exact H1.
Qed.
Lemma before_answered tr i j : before tr i j -> In (Answered i) tr.
Proof. intros (t1 & t2 & -> & H & _). apply in_or_app. left. exact H. Qed.
Lemma order_snoc h i j x : fst x <> i -> in_order h i j -> in_order (h ++ [x]) i j.
Proof.
  intros N O a b E Ha Hb. destruct b as [|z b _] using rev_ind; [destruct Hb|]. rewrite app_assoc in E. apply app_inj_tail in E as (-> & ->).
  rewrite map_app in Hb. apply in_app_or in Hb as [Hb|[Hb|[]]]; [exact (O a b eq_refl Ha Hb)|contradiction].
Qed.
Lemma order_ins h1 x h2 i j : fst x <> i -> (j = fst x -> ~ In i (map fst h2)) -> in_order (h1 ++ h2) i j -> in_order (h1 ++ x :: h2) i j.
Proof.
  intros N Nj O a b E Ha Hb. destruct b as [|z b]; [destruct Hb|]. apply cut_ins in E as [(w & -> & ->)|[(-> & -> & ->)|(w & -> & ->)]].
  - apply (O a (z :: w ++ h2)); [rewrite <- app_assoc; reflexivity|exact Ha|]. cbn [map In] in Hb |- *. destruct Hb as [Hb|Hb]; [left; exact Hb|right].
    rewrite map_app in Hb |- *. apply in_app_or in Hb as [Hb|[Hb|Hb]]; apply in_or_app; [left; exact Hb|contradiction|right; exact Hb].
  - apply (O h1 h2); [reflexivity|exact Ha|]. cbn [map In] in Hb. destruct Hb as [Hb|Hb]; [contradiction|exact Hb].
  - rewrite map_app in Ha. apply in_app_or in Ha as [Ha|Ha].
    + apply (O (h1 ++ w) (z :: b)); [rewrite <- app_assoc; reflexivity| |exact Hb]. rewrite map_app. apply in_or_app. left. exact Ha.
    + cbn [map In] in Ha. destruct Ha as [Ha|Ha].
      * apply (Nj (eq_sym Ha)). rewrite map_app. apply in_or_app. right. exact Hb.
      * apply (O (h1 ++ w) (z :: b)); [rewrite <- app_assoc; reflexivity| |exact Hb]. rewrite map_app. apply in_or_app. right. exact Ha.
Qed.

(** ** Where a request is, and what it has done *)
Definition owns (p : place) (n : nat) : Prop := p = PAdd n \/ exists o, p = PDrop o n.
Definition is_end (p : place) : Prop := exists a, p = PEnd a.
Definition made (objs : list obj) (n : nat) (id : string) (x : nat) : Prop := exists d, nth_error objs n = Some (mkO id [x] d false).
Definition remade (id : string) (rep : bool) (es : list eff) : Prop :=
  es = [E_has id false] \/ (rep = true /\ (es = [E_has id true; E_has id false] \/ es = [E_has id true; E_has id true; E_gone id])).
Definition stage (objs : list obj) (r : request) (p : place) (es : list eff) : Prop :=
  match p with
  | PEnd a => does r a es
  | PStart => es = []
  | _ =>
    match r with
    | RCreate id rep x =>
      match p with
      | PMake None => es = [E_has id false]
      | PMake (Some _) => rep = true /\ es = [E_has id true]
      | PDrop _ n => rep = true /\ es = [E_has id true] /\ made objs n id x
      | PAdd n => exists b, (b = true -> rep = true) /\ es = [E_has id b] /\ made objs n id x
      | _ => False
      end
    | RRestore id rep x =>
      match p with
      | PAgain => rep = true /\ es = [E_has id true]
      | PGone _ => rep = true /\ es = [E_has id true; E_has id true]
      | PErase _ => rep = true /\ es = [E_has id true; E_has id true; E_gone id]
      | PRemake => remade id rep es
      | PAdd n => remade id rep es /\ made objs n id x
      | _ => False
      end
    | RDelete id =>
      match p with
      | PGone _ => es = [E_has id true]
      | PErase _ => es = [E_has id true; E_gone id]
      | _ => False
      end
    | RCall id x =>
      match p with
      | PFound o => es = [E_has id true] /\ exists b, nth_error objs o = Some b /\ o_id b = id /\ o_added b = true
      | _ => False
      end
    end
  end.
(** the effect that took the list away; nobody who is answered before somebody who has the list came is behind it *)
Definition departed (tr : list label) (reqs : list (request * place)) (h : list (nat * eff)) (o : nat) (b : obj) : Prop :=
  exists h1 e h2, h = h1 ++ e :: h2 /\ kills (o_id b) (snd e) /\ at_id (o_id b) h1 = Some (o, o_hist b) /\
    forall j r, nth_error reqs j = Some (r, PFound o) -> forall i, i = j \/ before tr i j -> ~ In i (map fst (e :: h2)).
Record inv (tr : list label) (c : dcfg) (h : list (nat * eff)) : Prop := {
  v_legal : legal h;
  v_at : forall id, at_id id h = match d_map c id with Some o => match nth_error (d_objs c) o with Some b => Some (o, o_hist b) | None => None end | None => None end;
  v_map : forall id o, d_map c id = Some o -> exists b, nth_error (d_objs c) o = Some b /\ o_id b = id /\ o_added b = true;
  v_born : forall o b, nth_error (d_objs c) o = Some b -> o_added b = true -> d_map c (o_id b) = Some o \/ departed tr (d_reqs c) h o b;
  v_reqs : forall i r p, nth_error (d_reqs c) i = Some (r, p) -> stage (d_objs c) r p (effects i h);
  v_own : forall i j r p r' p' n, nth_error (d_reqs c) i = Some (r, p) -> nth_error (d_reqs c) j = Some (r', p') -> owns p n -> owns p' n -> i = j;
  v_rt : forall i j, before tr i j -> in_order h i j;
  v_num : forall x, In x h -> fst x < length (d_reqs c);
  v_ans : forall i, In (Answered i) tr -> exists r a, nth_error (d_reqs c) i = Some (r, PEnd a) }.

(** ** Steps *)
Section Step.
  Variables (tr : list label) (c : dcfg) (h : list (nat * eff)) (k : nat) (r : request) (p p' : place).
  Hypothesis (I : inv tr c h) (Hk : nth_error (d_reqs c) k = Some (r, p)) (Np : ~ is_end p).
  Let reqs' := at_place c k r p'.
  Definition lab : list label := match p' with PEnd _ => [Answered k] | _ => [] end.
  Lemma reqs_at i q : nth_error reqs' i = Some q -> (i = k /\ q = (r, p')) \/ (i <> k /\ nth_error (d_reqs c) i = Some q).
  Proof.
    unfold reqs', at_place. rewrite nth_upd_f. destruct (Nat.eqb_spec i k) as [->|N]; [|auto]. rewrite Hk. cbn. intros E. injection E as <-. auto.
  Qed.
  Lemma reqs_k : nth_error reqs' k = Some (r, p').
  Proof. unfold reqs', at_place. rewrite nth_upd_f, Nat.eqb_refl, Hk. reflexivity. Qed.
  Lemma reqs_ne i : i <> k -> nth_error reqs' i = nth_error (d_reqs c) i.
  Proof. intros N. unfold reqs', at_place. rewrite nth_upd_f. destruct (Nat.eqb_spec i k); [contradiction|reflexivity]. Qed.
  Lemma not_before j : ~ before tr k j.
  Proof. intros B. apply before_answered in B. apply (v_ans _ _ _ I) in B as (r' & a & E). rewrite Hk in E. injection E as <- ->. apply Np. exists a. reflexivity. Qed.
  Lemma before_lab i j : before (tr ++ lab) i j -> before tr i j.
  Proof.
    unfold lab. destruct p'; rewrite ?app_nil_r; auto. intros B. apply before_snoc in B as [B|(E & _)]; [exact B|discriminate].
  Qed.
  Lemma ans_lab i : In (Answered i) (tr ++ lab) -> exists r a, nth_error reqs' i = Some (r, PEnd a).
  Proof.
    intros H. apply in_app_or in H as [H|H].
    - destruct (v_ans _ _ _ I _ H) as (r' & a & E). exists r', a. rewrite reqs_ne; [exact E|]. intros ->. rewrite Hk in E. injection E as _ ->. apply Np. exists a. reflexivity.
    - unfold lab in H. assert (E : exists a, p' = PEnd a /\ i = k) by (destruct p'; try contradiction; destruct H as [H|[]]; injection H as ->; eauto).
      destruct E as (a & Ep & ->). exists r, a. rewrite <- Ep. exact reqs_k.
  Qed.
  Lemma num_ok h' : (forall x, In x h' -> In x h \/ fst x = k) -> forall x, In x h' -> fst x < length reqs'.
  Proof.
    intros H x Hx. unfold reqs', at_place. rewrite upd_len. destruct (H x Hx) as [E| ->]; [exact (v_num _ _ _ I x E)|]. apply nth_error_Some. congruence.
  Qed.
  (** effects at the end *)
  Lemma rt_end es : (forall x, In x es -> fst x = k) -> length es <= 1 -> forall i j, before (tr ++ lab) i j -> in_order (h ++ es) i j.
  Proof.
    intros F L i j B. apply before_lab in B. destruct es as [|x [|y es]]; [rewrite app_nil_r; exact (v_rt _ _ _ I _ _ B)| |cbn in L; lia].
    apply order_snoc; [|exact (v_rt _ _ _ I _ _ B)]. rewrite (F x (or_introl eq_refl)). intros E. subst i. exact (not_before _ B).
  Qed.
  Lemma departed_end es o b : (forall x, In x es -> fst x = k) -> p' <> PFound o ->
    departed tr (d_reqs c) h o b -> departed (tr ++ lab) reqs' (h ++ es) o b.
  Proof.
    intros F Nf (h1 & e & h2 & Eh & K & A & W). exists h1, e, (h2 ++ es). split; [rewrite Eh, <- app_assoc; reflexivity|]. split; [exact K|]. split; [exact A|].
    intros j r' Hj i Hi. apply reqs_at in Hj as [(_ & E)|(Nj & Hj)]; [injection E as _ E; congruence|].
    assert (Hi' : i = j \/ before tr i j) by (destruct Hi as [Hi|Hi]; [left; exact Hi|right; apply before_lab, Hi]).
    specialize (W j r' Hj i Hi'). change (e :: h2 ++ es) with ((e :: h2) ++ es). rewrite map_app. intros H. apply in_app_or in H as [H|H]; [exact (W H)|].
    apply in_map_iff in H as (x & E & Hx). rewrite (F x Hx) in E. subst i. destruct Hi' as [E|B]; [congruence|exact (not_before _ B)].
  Qed.
  Lemma departs id o b x : d_map c id = Some o -> nth_error (d_objs c) o = Some b -> fst x = k -> kills id (snd x) -> (forall o, p <> PFound o) -> (forall o, p' <> PFound o) ->
    departed (tr ++ lab) reqs' (h ++ [x]) o b.
  Proof.
    intros Em Eb Ex K Nf Nf'. destruct (v_map _ _ _ I _ _ Em) as (b' & E & Eid & _). rewrite Eb in E. injection E as <-. exists h, x, []. split; [reflexivity|]. rewrite Eid. split; [exact K|]. split.
    - rewrite (v_at _ _ _ I), Em, Eb. reflexivity.
    - intros j r' Hj i Hi. apply reqs_at in Hj as [(_ & E)|(Nj & Hj)]; [injection E as _ E; symmetry in E; exfalso; exact (Nf' _ E)|].
      intros [H|[]]. rewrite Ex in H. subst i. destruct Hi as [E|B]; [congruence|]. apply before_lab in B. exact (not_before _ B).
  Qed.
  (** ownership when nothing is made *)
  Lemma own_ok : (forall n, owns p' n -> owns p n) -> forall i j r1 p1 r2 p2 n, nth_error reqs' i = Some (r1, p1) -> nth_error reqs' j = Some (r2, p2) -> owns p1 n -> owns p2 n -> i = j.
  Proof.
    intros O i j r1 p1 r2 p2 n Hi Hj O1 O2.
    assert (G : forall i r1 p1, nth_error reqs' i = Some (r1, p1) -> owns p1 n -> exists r2 p2, nth_error (d_reqs c) i = Some (r2, p2) /\ owns p2 n).
    { intros i0 ra pa Ha Oa. apply reqs_at in Ha as [(-> & E)|(_ & Ha)]; [injection E as -> ->; exists r, p; auto|eauto]. }
    destruct (G _ _ _ Hi O1) as (? & ? & A & B). destruct (G _ _ _ Hj O2) as (? & ? & C & D). exact (v_own _ _ _ I _ _ _ _ _ _ _ A C B D).
  Qed.
  Lemma effects_ne i es : (forall x, In x es -> fst x = k) -> i <> k -> effects i es = [].
  Proof. intros F N. apply effects_none. intros H. apply in_map_iff in H as (x & E & Hx). rewrite (F x Hx) in E. congruence. Qed.

  (** a look at the map, or nothing *)
  Lemma inv_goes es :
    es = [] \/ (exists id, es = [(k, E_has id (match d_map c id with Some _ => true | None => false end))]) ->
    stage (d_objs c) r p' (effects k h ++ map snd es) -> (forall n, owns p' n -> owns p n) -> (forall o, p' = PFound o -> exists id, d_map c id = Some o) ->
    inv (tr ++ lab) (mkD (d_objs c) (d_map c) reqs') (h ++ es).
  Proof.
    intros Ees St Ow Fo.
    assert (F : forall x, In x es -> fst x = k) by (destruct Ees as [->|(id & ->)]; [intros ? []|intros ? [<-|[]]; reflexivity]).
    assert (At : forall id, at_id id (h ++ es) = at_id id h).
    { intros id. destruct Ees as [->|(id0 & ->)]; [rewrite app_nil_r; reflexivity|]. rewrite at_snoc. cbn [snd]. unfold after_eff. destruct (string_dec _ _); reflexivity. }
    constructor; cbn [d_objs d_map d_reqs].
    - destruct Ees as [->|(id & ->)]; [rewrite app_nil_r; exact (v_legal _ _ _ I)|]. apply legal_snoc; [exact (v_legal _ _ _ I)|]. cbn [snd fits target].
      rewrite (v_at _ _ _ I). destruct (d_map c id) as [o|] eqn:Em; [|reflexivity]. destruct (v_map _ _ _ I _ _ Em) as (b & -> & _). reflexivity.
    - intros id. rewrite At. exact (v_at _ _ _ I id).
    - exact (v_map _ _ _ I).
    - intros o b Eb Hb. destruct (v_born _ _ _ I _ _ Eb Hb) as [Em|D]; [left; exact Em|].
      assert (Dec : p' = PFound o \/ p' <> PFound o).
      { destruct p' as [|u| | | | | | | |]; try (right; discriminate). destruct (Nat.eq_dec u o) as [->|N]; [left; reflexivity|right; congruence]. }
      destruct Dec as [E|N].
      + left. destruct (Fo _ E) as (id & Em). destruct (v_map _ _ _ I _ _ Em) as (b' & E' & <- & _). rewrite Eb in E'. injection E' as <-. exact Em.
      + right. apply departed_end; assumption.
    - intros i r1 p1 Hi. rewrite effects_app. apply reqs_at in Hi as [(-> & E)|(N & Hi)].
      + injection E as -> ->. replace (effects k es) with (map snd es); [exact St|]. destruct Ees as [->|(id & ->)]; [reflexivity|]. rewrite effects_cons. cbn [fst]. rewrite Nat.eqb_refl. reflexivity.
      + rewrite (effects_ne i es F N), app_nil_r. exact (v_reqs _ _ _ I _ _ _ Hi).
    - apply own_ok, Ow.
    - apply rt_end; [exact F|]. destruct Ees as [->|(id & ->)]; cbn; lia.
    - apply num_ok. intros x Hx. apply in_app_or in Hx as [Hx|Hx]; [left; exact Hx|right; apply F, Hx].
    - exact ans_lab.
  Qed.
  (** the stage of the others, when the objects change *)
  Lemma stage_objs objs' r1 p1 es : (forall o b, nth_error (d_objs c) o = Some b -> o_added b = true -> exists b', nth_error objs' o = Some b' /\ o_id b' = o_id b /\ o_added b' = true) ->
    (forall n b, owns p1 n -> nth_error (d_objs c) n = Some b -> exists b', nth_error objs' n = Some b' /\ o_id b' = o_id b /\ o_hist b' = o_hist b /\ o_added b' = o_added b) ->
    stage (d_objs c) r1 p1 es -> stage objs' r1 p1 es.
  Proof.
    intros A B. assert (M : forall n id x, owns p1 n -> made (d_objs c) n id x -> made objs' n id x).
    { intros n id x O (d & E). destruct (B n _ O E) as ([i' h' d' a'] & E' & E1 & E2 & E3). cbn in E1, E2, E3. subst. exists d'. exact E'. }
    destruct p1; cbn [stage]; auto; destruct r1; auto.
    - intros (E & b & Eb & Ei & Ha). split; [exact E|]. destruct (A _ _ Eb Ha) as (b' & ? & ? & ?). exists b'. repeat split; [assumption|congruence|assumption].
    - intros (E & E' & X). repeat split; [exact E|exact E'|]. apply M; [right; eexists; reflexivity|exact X].
    - intros (b & E & E' & X). exists b. repeat split; [exact E|exact E'|]. apply M; [left; reflexivity|exact X].
    - intros (E & X). split; [exact E|]. apply M; [left; reflexivity|exact X].
  Qed.
  (** a new object *)
  Lemma inv_makes id x : (forall n, owns p' n -> n = length (d_objs c)) -> (forall o, p' <> PFound o) ->
    stage (d_objs c ++ [mkO id [x] true false]) r p' (effects k h) ->
    inv (tr ++ lab) (mkD (d_objs c ++ [mkO id [x] true false]) (d_map c) reqs') h.
  Proof.
    intros Ow Nf St. set (objs' := d_objs c ++ _) in *.
    assert (Old : forall o b, nth_error (d_objs c) o = Some b -> nth_error objs' o = Some b).
    { intros o b E. unfold objs'. rewrite nth_error_app1; [exact E|]. apply nth_error_Some. congruence. }
    constructor; cbn [d_objs d_map d_reqs].
    - exact (v_legal _ _ _ I).
    - intros i. rewrite (v_at _ _ _ I). destruct (d_map c i) as [o|] eqn:Em; [|reflexivity]. destruct (v_map _ _ _ I _ _ Em) as (b & E & _). rewrite E, (Old _ _ E). reflexivity.
    - intros i o Em. destruct (v_map _ _ _ I _ _ Em) as (b & E & X). exists b. split; [apply Old, E|exact X].
    - intros o b Eb Ha. assert (E : nth_error (d_objs c) o = Some b).
      { unfold objs' in Eb. destruct (Nat.lt_ge_cases o (length (d_objs c))) as [L|L]; [rewrite nth_error_app1 in Eb by exact L; exact Eb|].
        rewrite nth_error_app2 in Eb by exact L. destruct (o - length (d_objs c)) as [|[|u]]; cbn in Eb; try discriminate. injection Eb as <-. discriminate Ha. }
      destruct (v_born _ _ _ I _ _ E Ha) as [Em|D]; [left; exact Em|right]. rewrite <- (app_nil_r h). apply departed_end; [intros ? []|apply Nf|exact D].
    - intros i r1 p1 Hi. apply reqs_at in Hi as [(-> & E)|(N & Hi)]; [injection E as -> ->; exact St|].
      apply stage_objs; [intros o b E Ha; exists b; auto|intros n b _ E; exists b; auto|exact (v_reqs _ _ _ I _ _ _ Hi)].
    - intros i j r1 p1 r2 p2 n Hi Hj O1 O2.
      assert (G : forall i r1 p1, i <> k -> nth_error (d_reqs c) i = Some (r1, p1) -> owns p1 n -> n < length (d_objs c)).
      { intros i0 ra pa _ Ha Oa. pose proof (v_reqs _ _ _ I _ _ _ Ha) as S. assert (X : exists id x, made (d_objs c) n id x).
        { destruct Oa as [->|(o & ->)]; cbn [stage] in S; destruct ra; try contradiction; [destruct S as (? & _ & _ & X)|destruct S as (_ & X)|destruct S as (_ & _ & X)]; eauto. }
        destruct X as (? & ? & d & X). apply nth_error_Some. congruence. }
      apply reqs_at in Hi as [(-> & E)|(N & Hi)]; apply reqs_at in Hj as [(-> & E')|(N' & Hj)]; [reflexivity| | |exact (v_own _ _ _ I _ _ _ _ _ _ _ Hi Hj O1 O2)].
      + injection E as -> ->. specialize (G _ _ _ N' Hj O2). apply Ow in O1. lia.
      + injection E' as -> ->. specialize (G _ _ _ N Hi O1). apply Ow in O2. lia.
    - intros i j B. rewrite <- (app_nil_r h). apply rt_end; [intros ? []|cbn; lia|exact B].
    - apply num_ok. auto.
    - exact ans_lab.
  Qed.
  Lemma owned i r1 p1 n : nth_error (d_reqs c) i = Some (r1, p1) -> owns p1 n -> exists id x, made (d_objs c) n id x.
  Proof.
    intros Ha Oa. pose proof (v_reqs _ _ _ I _ _ _ Ha) as S.
    destruct Oa as [->|(o & ->)]; cbn [stage] in S; destruct r1; try contradiction; [destruct S as (? & _ & _ & X)|destruct S as (_ & X)|destruct S as (_ & _ & X)]; eauto.
  Qed.
  (** the data of an object is deleted *)
  Lemma inv_erases ok o : (forall n, owns p' n -> owns p n) -> (forall o, p' <> PFound o) ->
    stage (d_objs c) r p' (effects k h) ->
    inv (tr ++ lab) (mkD (erase ok o (d_objs c)) (d_map c) reqs') h.
  Proof.
    intros Ow Nf St. set (objs' := erase ok o (d_objs c)).
    assert (Old : forall n b, nth_error (d_objs c) n = Some b -> exists b', nth_error objs' n = Some b' /\ o_id b' = o_id b /\ o_hist b' = o_hist b /\ o_added b' = o_added b).
    { intros n b E. unfold objs', erase. destruct ok; [|exists b; auto]. rewrite nth_upd_f, E. destruct (n =? o); eexists; (split; [reflexivity|]); cbn; auto. }
    assert (New : forall n b', nth_error objs' n = Some b' -> exists b, nth_error (d_objs c) n = Some b /\ o_id b' = o_id b /\ o_hist b' = o_hist b /\ o_added b' = o_added b).
    { intros n b' E. destruct (nth_error (d_objs c) n) as [b|] eqn:Eb.
      - exists b. split; [reflexivity|]. destruct (Old _ _ Eb) as (b2 & E2 & X). rewrite E in E2. injection E2 as <-. exact X.
      - unfold objs', erase in E. destruct ok; [rewrite nth_upd_f, Eb in E; destruct (n =? o); discriminate|congruence]. }
    assert (St' : forall r1 p1 es, stage (d_objs c) r1 p1 es -> stage objs' r1 p1 es).
    { intros r1 p1 es. apply stage_objs; [|intros n b _; apply Old]. intros n b E Ha. destruct (Old _ _ E) as (b' & E' & A1 & A2 & A3). exists b'. repeat split; congruence. }
    constructor; cbn [d_objs d_map d_reqs].
    - exact (v_legal _ _ _ I).
    - intros i. rewrite (v_at _ _ _ I). destruct (d_map c i) as [n|] eqn:Em; [|reflexivity]. destruct (v_map _ _ _ I _ _ Em) as (b & E & _).
      destruct (Old _ _ E) as (b' & E' & _ & A & _). rewrite E, E', A. reflexivity.
    - intros i n Em. destruct (v_map _ _ _ I _ _ Em) as (b & E & A & B). destruct (Old _ _ E) as (b' & E' & A1 & A2 & A3). exists b'. repeat split; congruence.
    - intros n b' Eb Ha. destruct (New _ _ Eb) as (b & E & A1 & A2 & A3). rewrite A1. destruct (v_born _ _ _ I n b E) as [Em|D]; [congruence|left; exact Em|right].
      rewrite <- (app_nil_r h). apply (departed_end []) in D; [|intros ? []|apply Nf]. destruct D as (h1 & e & h2 & D1 & D2 & D3 & D4). exists h1, e, h2. rewrite A1, A2. auto.
    - intros i r1 p1 Hi. apply reqs_at in Hi as [(-> & E)|(N & Hi)]; [injection E as -> ->; apply St', St|]. apply St', (v_reqs _ _ _ I _ _ _ Hi).
    - apply own_ok, Ow.
    - intros i j B. rewrite <- (app_nil_r h). apply rt_end; [intros ? []|cbn; lia|exact B].
    - apply num_ok. auto.
    - exact ans_lab.
  Qed.
  (** an ID leaves the map *)
  Lemma inv_deletes id : (forall n, ~ owns p' n) -> (forall o, p <> PFound o) -> (forall o, p' <> PFound o) -> stage (d_objs c) r p' (effects k h ++ [E_gone id]) ->
    inv (tr ++ lab) (mkD (d_objs c) (set_map (d_map c) id None) reqs') (h ++ [(k, E_gone id)]).
  Proof.
    intros Ow Nf Nf' St. assert (F : forall x, In x [(k, E_gone id)] -> fst x = k) by (intros ? [<-|[]]; reflexivity).
    constructor; cbn [d_objs d_map d_reqs].
    - apply legal_snoc; [exact (v_legal _ _ _ I)|exact Logic.I].
    - intros i. rewrite at_snoc. cbn [snd]. unfold after_eff, set_map. cbn [target]. destruct (string_dec id i) as [->|N]; [destruct (string_dec i i); congruence|].
      destruct (string_dec i id); [congruence|]. exact (v_at _ _ _ I i).
    - intros i o. unfold set_map. destruct (string_dec i id); [discriminate|]. apply (v_map _ _ _ I).
    - intros o b Eb Ha. destruct (v_born _ _ _ I _ _ Eb Ha) as [Em|D].
      + unfold set_map. destruct (string_dec (o_id b) id) as [E|N]; [right|left; exact Em]. rewrite E in Em. eapply departs; [exact Em|exact Eb|reflexivity|left; reflexivity|exact Nf|exact Nf'].
      + right. apply departed_end; [exact F|apply Nf'|exact D].
    - intros i r1 p1 Hi. rewrite effects_app. apply reqs_at in Hi as [(-> & E)|(N & Hi)].
      + injection E as -> ->. rewrite effects_cons. cbn [fst]. rewrite Nat.eqb_refl. exact St.
      + rewrite (effects_ne i _ F N), app_nil_r. exact (v_reqs _ _ _ I _ _ _ Hi).
    - apply own_ok. intros n O. destruct (Ow n O).
    - apply rt_end; [exact F|cbn; lia].
    - apply num_ok. intros x Hx. apply in_app_or in Hx as [Hx|Hx]; [left; exact Hx|right; apply F, Hx].
    - exact ans_lab.
  Qed.
  (** a list is put into the map *)
  Lemma inv_adds id new x : p = PAdd new -> p' = PEnd AOk -> made (d_objs c) new id x -> does r AOk (effects k h ++ [E_put id new x]) ->
    inv (tr ++ [Answered k]) (mkD (upd_nth new (fun b => mkO (o_id b) (o_hist b) (o_data b) true) (d_objs c)) (set_map (d_map c) id (Some new)) reqs') (h ++ [(k, E_put id new x)]).
  Proof.
    intros Ep Ep' (d & Em) St. assert (El : lab = [Answered k]) by (unfold lab; rewrite Ep'; reflexivity). rewrite <- El.
    set (objs' := upd_nth new _ _).
    assert (Nw : nth_error objs' new = Some (mkO id [x] d true)) by (unfold objs'; rewrite nth_upd_f, Nat.eqb_refl, Em; reflexivity).
    assert (Ne : forall o, o <> new -> nth_error objs' o = nth_error (d_objs c) o) by (intros o N; unfold objs'; rewrite nth_upd_f; destruct (Nat.eqb_spec o new); [contradiction|reflexivity]).
    assert (Nm : forall i, d_map c i <> Some new).
    { intros i E. destruct (v_map _ _ _ I _ _ E) as (b & E' & _ & Ha). rewrite Em in E'. injection E' as <-. discriminate Ha. }
    assert (F : forall y, In y [(k, E_put id new x)] -> fst y = k) by (intros ? [<-|[]]; reflexivity).
    assert (Nf : forall o, p <> PFound o) by (intros o; rewrite Ep; discriminate). assert (Nf' : forall o, p' <> PFound o) by (intros o; rewrite Ep'; discriminate).
    constructor; cbn [d_objs d_map d_reqs].
    - apply legal_snoc; [exact (v_legal _ _ _ I)|exact Logic.I].
    - intros i. rewrite at_snoc. cbn [snd]. unfold after_eff, set_map. cbn [target]. destruct (string_dec id i) as [->|N].
      + destruct (string_dec i i); [|congruence]. rewrite Nw. reflexivity.
      + destruct (string_dec i id); [congruence|]. rewrite (v_at _ _ _ I i). destruct (d_map c i) as [o|] eqn:Eo; [|reflexivity]. rewrite Ne; [reflexivity|]. intros ->. exact (Nm _ Eo).
    - intros i o. unfold set_map. destruct (string_dec i id) as [->|N].
      + intros E. injection E as <-. eexists. split; [exact Nw|]. auto.
      + intros E. destruct (v_map _ _ _ I _ _ E) as (b & E' & X). exists b. rewrite Ne; [auto|]. intros ->. exact (Nm _ E).
    - intros o b Eb Ha. destruct (Nat.eq_dec o new) as [->|N].
      + left. rewrite Nw in Eb. injection Eb as <-. cbn [o_id]. unfold set_map. destruct (string_dec id id); congruence.
      + rewrite Ne in Eb by exact N. destruct (v_born _ _ _ I _ _ Eb Ha) as [Eo|D].
        * unfold set_map. destruct (string_dec (o_id b) id) as [E|N']; [right|left; exact Eo]. rewrite E in Eo.
          eapply departs; [exact Eo|exact Eb|reflexivity|right; do 2 eexists; reflexivity|exact Nf|exact Nf'].
        * right. apply departed_end; [exact F|apply Nf'|exact D].
    - intros i r1 p1 Hi. rewrite effects_app. apply reqs_at in Hi as [(-> & E)|(N & Hi)].
      + injection E as -> ->. rewrite effects_cons. cbn [fst]. rewrite Nat.eqb_refl, Ep'. exact St.
      + rewrite (effects_ne i _ F N), app_nil_r. apply stage_objs; [| |exact (v_reqs _ _ _ I _ _ _ Hi)].
        * intros o b Eb Ha. destruct (Nat.eq_dec o new) as [->|N']; [rewrite Em in Eb; injection Eb as <-; discriminate Ha|]. exists b. rewrite Ne by exact N'. auto.
        * intros n b O Eb. exists b. rewrite Ne; [auto|]. intros ->. apply N. eapply (v_own _ _ _ I); [exact Hi|exact Hk|exact O|left; exact Ep].
    - apply own_ok. rewrite Ep'. intros n [O|(o & O)]; discriminate O.
    - apply rt_end; [exact F|cbn; lia].
    - apply num_ok. intros y Hy. apply in_app_or in Hy as [Hy|Hy]; [left; exact Hy|right; apply F, Hy].
    - exact ans_lab.
  Qed.
  (** a call on an object: at the end if it is in the map, and otherwise just before it left *)
  Lemma inv_call id x o b : r = RCall id x -> p = PFound o -> nth_error (d_objs c) o = Some b -> p' = PEnd (AGot o (o_hist b)) ->
    exists h', inv (tr ++ [Answered k]) (mkD (upd_nth o (fun b => mkO (o_id b) (o_hist b ++ [x]) (o_data b) (o_added b)) (d_objs c)) (d_map c) reqs') h'.
  Proof.
    intros Er Ep Eb Ep'. assert (El : lab = [Answered k]) by (unfold lab; rewrite Ep'; reflexivity). rewrite <- El.
    assert (S : effects k h = [E_has id true] /\ exists b, nth_error (d_objs c) o = Some b /\ o_id b = id /\ o_added b = true).
    { pose proof (v_reqs _ _ _ I _ _ _ Hk) as S. rewrite Er, Ep in S. exact S. }
    destruct S as (Ek & b0 & E0 & Eid & Ha). rewrite Eb in E0. injection E0 as <-.
    set (objs' := upd_nth o _ _). set (b' := mkO (o_id b) (o_hist b ++ [x]) (o_data b) (o_added b)).
    assert (Nw : nth_error objs' o = Some b') by (unfold objs'; rewrite nth_upd_f, Nat.eqb_refl, Eb; reflexivity).
    assert (Ne : forall n, n <> o -> nth_error objs' n = nth_error (d_objs c) n) by (intros n N; unfold objs'; rewrite nth_upd_f; destruct (Nat.eqb_spec n o); [contradiction|reflexivity]).
    assert (Nf' : forall o, p' <> PFound o) by (intros n; rewrite Ep'; discriminate).
    assert (St : forall i r1 p1 es, nth_error (d_reqs c) i = Some (r1, p1) -> stage (d_objs c) r1 p1 es -> stage objs' r1 p1 es).
    { intros i r1 p1 es Hi. apply stage_objs.
      - intros n b1 E Hb. destruct (Nat.eq_dec n o) as [->|N]; [rewrite Eb in E; injection E as <-; exists b'; auto|exists b1; rewrite Ne by exact N; auto].
      - intros n b1 O E. destruct (Nat.eq_dec n o) as [->|N]; [|exists b1; rewrite Ne by exact N; auto]. destruct (owned _ _ _ _ Hi O) as (? & ? & d & M). rewrite Eb in M. injection M as ->. discriminate Ha. }
    assert (Mp : forall i n, d_map c i = Some n -> exists b1, nth_error objs' n = Some b1 /\ o_id b1 = i /\ o_added b1 = true).
    { intros i n E. destruct (v_map _ _ _ I _ _ E) as (b1 & E1 & X). destruct (Nat.eq_dec n o) as [->|N]; [rewrite Eb in E1; injection E1 as <-; exists b'; auto|exists b1; rewrite Ne by exact N; auto]. }
    assert (Own : forall i j r1 p1 r2 p2 n, nth_error reqs' i = Some (r1, p1) -> nth_error reqs' j = Some (r2, p2) -> owns p1 n -> owns p2 n -> i = j).
    { apply own_ok. rewrite Ep'. intros n [O|(u & O)]; discriminate O. }
    set (y := (k, E_call id x o (o_hist b))).
    assert (F : forall z, In z [y] -> fst z = k) by (intros ? [<-|[]]; reflexivity).
    assert (Dn : does r (AGot o (o_hist b)) (effects k h ++ [snd y])) by (rewrite Ek, Er; constructor).
    destruct (d_map c id) as [o1|] eqn:Em; [destruct (Nat.eq_dec o1 o) as [->|No]|].
    { exists (h ++ [y]). assert (Ha0 : at_id id h = Some (o, o_hist b)) by (rewrite (v_at _ _ _ I), Em, Eb; reflexivity). constructor; cbn [d_objs d_map d_reqs].
      - apply legal_snoc; [exact (v_legal _ _ _ I)|exact Ha0].
      - intros i. rewrite at_snoc. unfold after_eff. cbn [y snd target]. destruct (string_dec id i) as [<-|N].
        + rewrite Ha0, Em, Nw. reflexivity.
        + rewrite (v_at _ _ _ I). destruct (d_map c i) as [n|] eqn:En; [|reflexivity]. rewrite Ne; [reflexivity|]. intros ->. destruct (v_map _ _ _ I _ _ En) as (b1 & E1 & Ei & _). congruence.
      - exact Mp.
      - intros n b1 E1 Hb1. destruct (Nat.eq_dec n o) as [->|N]; [left; rewrite Nw in E1; injection E1 as <-; cbn [b' o_id]; rewrite Eid; exact Em|].
        rewrite Ne in E1 by exact N. destruct (v_born _ _ _ I _ _ E1 Hb1) as [X|D]; [left; exact X|right; apply departed_end; [exact F|apply Nf'|exact D]].
      - intros i r1 p1 Hi. rewrite effects_app. apply reqs_at in Hi as [(-> & E)|(N & Hi)].
        + injection E as -> ->. rewrite effects_cons. cbn [y fst]. rewrite Nat.eqb_refl, Ep'. exact Dn.
        + rewrite (effects_ne i _ F N), app_nil_r. apply (St i _ _ _ Hi), (v_reqs _ _ _ I _ _ _ Hi).
      - exact Own.
      - apply rt_end; [exact F|cbn; lia].
      - apply num_ok. intros z Hz. apply in_app_or in Hz as [Hz|Hz]; [left; exact Hz|right; apply F, Hz].
      - exact ans_lab. }
    all: assert (Dp : departed tr (d_reqs c) h o b) by (destruct (v_born _ _ _ I _ _ Eb Ha) as [X|D]; [exfalso; rewrite Eid in X; congruence|exact D]).
    all: destruct Dp as (h1 & e & h2 & Eh & K & At & W); rewrite Eid in K, At.
    all: assert (Wk : forall i, i = k \/ before tr i k -> ~ In i (map fst (e :: h2))) by (rewrite Ep in Hk; exact (W k r Hk)).
    all: assert (Nmo : forall i, d_map c i <> Some o) by (intros i E; destruct (v_map _ _ _ I _ _ E) as (b1 & E1 & Ei & _); congruence).
    all: exists (h1 ++ y :: e :: h2); constructor; cbn [d_objs d_map d_reqs]; [| |exact Mp| | |exact Own| | |exact ans_lab].
    all: try (apply (legal_ins id); [rewrite <- Eh; exact (v_legal _ _ _ I)|reflexivity|exact K|exact At]).
    all: try (intros i; rewrite (at_ins id) by (reflexivity || exact K); rewrite <- Eh, (v_at _ _ _ I); destruct (d_map c i) as [n|] eqn:En; [|reflexivity];
      rewrite Ne; [reflexivity|intros ->; exact (Nmo _ En)]).
    all: try (apply num_ok; intros z Hz; rewrite Eh; apply in_app_or in Hz as [Hz|[<-|Hz]]; [left; apply in_or_app; left; exact Hz|right; reflexivity|left; apply in_or_app; right; exact Hz]).
    all: try (intros i j B; apply before_lab in B; apply order_ins;
      [cbn [y fst]; intros E; subst i; exact (not_before _ B)|cbn [y fst]; intros E; subst j; apply Wk; right; exact B|rewrite <- Eh; exact (v_rt _ _ _ I _ _ B)]).
    all: try (intros i r1 p1 Hi; rewrite effects_app, effects_cons; cbn [y fst snd]; apply reqs_at in Hi as [(-> & E)|(N & Hi)];
      [injection E as -> ->; rewrite Nat.eqb_refl, Ep', (effects_none k (e :: h2)) by (apply Wk; left; reflexivity); cbn [app];
       rewrite Eh, effects_app, (effects_none k (e :: h2)), app_nil_r in Dn by (apply Wk; left; reflexivity); exact Dn
      |destruct (Nat.eqb_spec k i); [congruence|]; cbn [app]; rewrite <- effects_app, <- Eh; apply (St i _ _ _ Hi), (v_reqs _ _ _ I _ _ _ Hi)]).
    all: intros n b1 E1 Hb1; destruct (Nat.eq_dec n o) as [->|N].
    all: try (right; rewrite Nw in E1; injection E1 as <-; exists (h1 ++ [y]), e, h2; split; [rewrite <- app_assoc; reflexivity|]; cbn [b' o_id o_hist]; rewrite Eid; split; [exact K|];
      split; [rewrite at_snoc; unfold after_eff; cbn [y snd target]; destruct (string_dec id id); [rewrite At; reflexivity|congruence]|];
      intros j r1 Hj i Hi; apply reqs_at in Hj as [(_ & E)|(Nj & Hj)]; [injection E as _ E; symmetry in E; destruct (Nf' _ E)|];
      apply (W j r1 Hj); destruct Hi as [Hi|Hi]; [left; exact Hi|right; apply before_lab, Hi]).
    all: rewrite Ne in E1 by exact N; destruct (v_born _ _ _ I _ _ E1 Hb1) as [X|(g1 & f & g2 & Eg & Kg & Ag & Wg)]; [left; exact X|right].
    all: assert (Wg' : forall j r1, nth_error reqs' j = Some (r1, PFound n) -> forall i, i = j \/ before (tr ++ lab) i j -> ~ In i (map fst (f :: g2)) /\ i <> k) by
      (intros j r1 Hj i Hi; apply reqs_at in Hj as [(_ & E)|(Nj & Hj)]; [injection E as _ E; symmetry in E; destruct (Nf' _ E)|];
       assert (Hi' : i = j \/ before tr i j) by (destruct Hi as [Hi|Hi]; [left; exact Hi|right; apply before_lab, Hi]);
       split; [exact (Wg j r1 Hj i Hi')|intros E; subst i; destruct Hi' as [E|B]; [congruence|exact (not_before _ B)]]).
    all: rewrite Eg in Eh; symmetry in Eh; apply cut_ins in Eh as [(w & -> & ->)|[(-> & -> & ->)|(w & -> & ->)]].
    all: try (exfalso; apply N; destruct K as [K|(u & v & K)], Kg as [Kg|(u' & v' & Kg)]; rewrite K in Kg; try discriminate Kg; injection Kg; intros; subst; congruence).
    all: try (exists g1, f, (w ++ y :: e :: h2); split; [rewrite <- app_assoc; reflexivity|]; split; [exact Kg|]; split; [exact Ag|]; intros j r1 Hj i Hi; destruct (Wg' j r1 Hj i Hi) as (A1 & A2);
      cbn [map In] in A1 |- *; rewrite map_app in A1 |- *; intros [A|A]; [apply A1; left; exact A|]; apply in_app_or in A as [A|[A|A]];
      [apply A1; right; apply in_or_app; left; exact A|cbn [y fst] in A; congruence|apply A1; right; apply in_or_app; right; exact A]).
    all: exists (h1 ++ y :: e :: w), f, g2; split; [rewrite <- app_assoc; reflexivity|]; split; [exact Kg|]; split; [rewrite (at_ins id) by (reflexivity || exact K); exact Ag|];
      intros j r1 Hj i Hi; exact (proj1 (Wg' j r1 Hj i Hi)).
  Qed.
End Step.

Lemma inv_start : inv [] dstart [].
Proof.
  constructor; cbn [dstart d_objs d_map d_reqs].
  - intros [|? ?] x h2 E; discriminate E.
  - reflexivity.
  - discriminate.
  - intros [|o] b E; discriminate E.
  - intros [|o] r p E; discriminate E.
  - intros [|i] j r p r' p' n E; discriminate E.
  - intros i j (t1 & t2 & E & H & _). symmetry in E. apply app_eq_nil in E as (-> & _). destruct H.
  - intros x [].
  - intros i [].
Qed.
Lemma inv_come tr c h r : inv tr c h -> inv (tr ++ [Came (length (d_reqs c))]) (mkD (d_objs c) (d_map c) (d_reqs c ++ [(r, PStart)])) h.
Proof.
  intros I. set (n := length (d_reqs c)).
  assert (At : forall i q, nth_error (d_reqs c ++ [(r, PStart)]) i = Some q -> nth_error (d_reqs c) i = Some q \/ (i = n /\ q = (r, PStart))).
  { intros i q E. destruct (Nat.lt_ge_cases i n) as [L|L]; [rewrite nth_error_app1 in E by exact L; auto|].
    rewrite nth_error_app2 in E by exact L. fold n in E. destruct (i - n) as [|[|u]] eqn:Ei; cbn in E; try discriminate. injection E as <-. right. split; [lia|reflexivity]. }
  assert (Nn : ~ In n (map fst h)). { intros H. apply in_map_iff in H as (x & E & Hx). apply (v_num _ _ _ I) in Hx. fold n in Hx. lia. }
  assert (Bf : forall i j, before (tr ++ [Came n]) i j -> before tr i j \/ j = n).
  { intros i j B. apply before_snoc in B as [B|(E & _)]; [left; exact B|right; congruence]. }
  constructor; cbn [d_objs d_map d_reqs].
  - exact (v_legal _ _ _ I).
  - exact (v_at _ _ _ I).
  - exact (v_map _ _ _ I).
  - intros o b Eb Ha. destruct (v_born _ _ _ I _ _ Eb Ha) as [X|(h1 & e & h2 & -> & K & A & W)]; [left; exact X|right]. exists h1, e, h2. split; [reflexivity|]. split; [exact K|]. split; [exact A|].
    intros j r1 Hj i Hi. apply At in Hj as [Hj|(_ & E)]; [|discriminate E]. apply (W j r1 Hj). destruct Hi as [Hi|Hi]; [left; exact Hi|right].
    apply Bf in Hi as [Hi|E]; [exact Hi|]. exfalso. assert (j < n) by (apply nth_error_Some; congruence). lia.
  - intros i r1 p1 Hi. apply At in Hi as [Hi|(-> & E)]; [exact (v_reqs _ _ _ I _ _ _ Hi)|]. injection E as -> ->. cbn [stage]. apply effects_none, Nn.
  - intros i j r1 p1 r2 p2 m Hi Hj O1 O2. apply At in Hi as [Hi|(-> & E)]; [|injection E as -> ->; destruct O1 as [O|(? & O)]; discriminate O].
    apply At in Hj as [Hj|(-> & E)]; [|injection E as -> ->; destruct O2 as [O|(? & O)]; discriminate O]. exact (v_own _ _ _ I _ _ _ _ _ _ _ Hi Hj O1 O2).
  - intros i j B. apply Bf in B as [B| ->]; [exact (v_rt _ _ _ I _ _ B)|]. intros a b E Ha _. apply Nn. rewrite E, map_app. apply in_or_app. left. exact Ha.
  - intros x Hx. apply (v_num _ _ _ I) in Hx. rewrite app_length. cbn. lia.
  - intros i H. apply in_app_or in H as [H|[H|[]]]; [|discriminate H]. destruct (v_ans _ _ _ I _ H) as (r1 & a & E). exists r1, a. rewrite nth_error_app1; [exact E|]. apply nth_error_Some. congruence.
Qed.
Ltac no_own := intros ? [O|(? & O)]; discriminate O.
Ltac no_end := intros (? & E); discriminate E.
Lemma inv_step tr c h x ls c' : inv tr c h -> dstep c x = Some (ls, c') -> exists h', inv (tr ++ ls) c' h'.
Proof.
  intros I. destruct x as [r|k ok]; cbn [dstep].
  - intros E. injection E as <- <-. exists h. apply inv_come, I.
  - destruct (nth_error (d_reqs c) k) as [[r p]|] eqn:Hk; [|discriminate]. pose proof (v_reqs _ _ _ I _ _ _ Hk) as S.
    assert (Lk : forall id o, d_map c id = Some o -> [(k, E_has id true)] = [(k, E_has id match d_map c id with Some _ => true | None => false end)]) by (intros id o ->; reflexivity).
    assert (Ln : forall id, d_map c id = None -> [(k, E_has id false)] = [(k, E_has id match d_map c id with Some _ => true | None => false end)]) by (intros id ->; reflexivity).
    destruct r as [id rep x|id rep x|id|id x].
    + destruct p as [| |old|old new|new| | | | |]; try discriminate; cbn [stage] in S.
      * destruct (d_map c id) as [o|] eqn:Em; intros E; injection E as <- <-.
        -- exists (h ++ [(k, E_has id true)]). eapply (inv_goes tr c h k _ PStart); [exact I|exact Hk|no_end|right; exists id; eapply Lk, Em| | |].
           ++ rewrite S. destruct rep; cbn; [auto|constructor].
           ++ destruct rep; no_own.
           ++ destruct rep; discriminate.
        -- exists (h ++ [(k, E_has id false)]). eapply (inv_goes tr c h k _ PStart (PMake None)); [exact I|exact Hk|no_end|right; exists id; apply Ln, Em|rewrite S; reflexivity|no_own|discriminate].
      * destruct ok; intros E; injection E as <- <-.
        -- exists h. destruct old as [o|].
           ++ destruct S as (-> & S). eapply (inv_makes tr c h k _ _ (PDrop o _)); [exact I|exact Hk|no_end| |discriminate|].
              ** intros n [O|(? & O)]; [discriminate O|injection O; intros; congruence].
              ** rewrite S. cbn. repeat split. exists true. rewrite nth_error_app2 by lia. rewrite Nat.sub_diag. reflexivity.
           ++ eapply (inv_makes tr c h k _ _ (PAdd _)); [exact I|exact Hk|no_end| |discriminate|].
              ** intros n [O|(? & O)]; [injection O; intros; congruence|discriminate O].
              ** rewrite S. cbn. exists false. repeat split; [discriminate|]. exists true. rewrite nth_error_app2 by lia. rewrite Nat.sub_diag. reflexivity.
        -- exists (h ++ []). eapply (inv_goes tr c h k _ _ (PEnd AFailed)); [exact I|exact Hk|no_end|left; reflexivity| |no_own|discriminate].
           cbn [map]. rewrite app_nil_r. cbn [stage]. destruct old; [destruct S as (-> & ->)|rewrite S]; constructor; [reflexivity|discriminate].
      * intros E. injection E as <- <-. exists h. destruct S as (-> & S & M). eapply (inv_erases tr c h k _ _ (PAdd new)); [exact I|exact Hk|no_end| |discriminate|].
        -- intros n [O|(? & O)]; [injection O as <-; right; exists old; reflexivity|discriminate O].
        -- rewrite S. cbn. exists true. auto.
      * intros E. injection E as <- <-. destruct S as (b & Hb & S & M). exists (h ++ [(k, E_put id new x)]).
        eapply (inv_adds tr c h k); [exact I|exact Hk|no_end|reflexivity|reflexivity|exact M|]. rewrite S. constructor. exact Hb.
    + destruct p as [| | | |new| |o|o| |]; try discriminate; cbn [stage] in S.
      * destruct (d_map c id) as [o|] eqn:Em; intros E; injection E as <- <-.
        -- exists (h ++ [(k, E_has id true)]). eapply (inv_goes tr c h k _ PStart); [exact I|exact Hk|no_end|right; exists id; eapply Lk, Em| | |].
           ++ rewrite S. destruct rep; cbn; [auto|constructor].
           ++ destruct rep; no_own.
           ++ destruct rep; discriminate.
        -- exists (h ++ [(k, E_has id false)]). eapply (inv_goes tr c h k _ PStart PRemake); [exact I|exact Hk|no_end|right; exists id; apply Ln, Em|rewrite S; left; reflexivity|no_own|discriminate].
      * intros E. injection E as <- <-. destruct S as (S & M). exists (h ++ [(k, E_put id new x)]).
        eapply (inv_adds tr c h k); [exact I|exact Hk|no_end|reflexivity|reflexivity|exact M|]. destruct S as [S|(-> & [S|S])]; rewrite S; constructor.
      * destruct S as (-> & S). destruct (d_map c id) as [o|] eqn:Em; intros E; injection E as <- <-.
        -- exists (h ++ [(k, E_has id true)]). eapply (inv_goes tr c h k _ PAgain (PGone o)); [exact I|exact Hk|no_end|right; exists id; eapply Lk, Em|rewrite S; cbn; auto|no_own|discriminate].
        -- exists (h ++ [(k, E_has id false)]). eapply (inv_goes tr c h k _ PAgain PRemake); [exact I|exact Hk|no_end|right; exists id; apply Ln, Em|rewrite S; cbn; right; auto|no_own|discriminate].
      * intros E. injection E as <- <-. destruct S as (-> & S). exists (h ++ [(k, E_gone id)]).
        eapply (inv_deletes tr c h k _ (PGone o) (PErase o)); [exact I|exact Hk|no_end|no_own|discriminate|discriminate|]. rewrite S. cbn. auto.
      * intros E. injection E as <- <-. exists h. destruct S as (-> & S). eapply (inv_erases tr c h k _ (PErase o) PRemake); [exact I|exact Hk|no_end|no_own|discriminate|]. rewrite S. cbn. right. auto.
      * destruct ok; intros E; injection E as <- <-.
        -- exists h. eapply (inv_makes tr c h k _ _ (PAdd _)); [exact I|exact Hk|no_end| |discriminate|].
           ++ intros n [O|(? & O)]; [injection O; intros; congruence|discriminate O].
           ++ cbn. split; [exact S|]. exists true. rewrite nth_error_app2 by lia. rewrite Nat.sub_diag. reflexivity.
        -- exists (h ++ []). eapply (inv_goes tr c h k _ _ (PEnd AFailed)); [exact I|exact Hk|no_end|left; reflexivity| |no_own|discriminate].
           cbn [map]. rewrite app_nil_r. cbn [stage]. destruct S as [S|(-> & [S|S])]; rewrite S; constructor.
    + destruct p as [| | | | | |o|o| |]; try discriminate; cbn [stage] in S.
      * destruct (d_map c id) as [o|] eqn:Em; intros E; injection E as <- <-.
        -- exists (h ++ [(k, E_has id true)]). eapply (inv_goes tr c h k _ PStart (PGone o)); [exact I|exact Hk|no_end|right; exists id; eapply Lk, Em|rewrite S; reflexivity|no_own|discriminate].
        -- exists (h ++ [(k, E_has id false)]). eapply (inv_goes tr c h k _ PStart (PEnd AOk)); [exact I|exact Hk|no_end|right; exists id; apply Ln, Em|rewrite S; cbn; constructor|no_own|discriminate].
      * intros E. injection E as <- <-. exists (h ++ [(k, E_gone id)]).
        eapply (inv_deletes tr c h k _ (PGone o) (PErase o)); [exact I|exact Hk|no_end|no_own|discriminate|discriminate|]. rewrite S. reflexivity.
      * intros E. injection E as <- <-. exists h. eapply (inv_erases tr c h k _ (PErase o) (PEnd AOk)); [exact I|exact Hk|no_end|no_own|discriminate|]. rewrite S. constructor.
    + destruct p as [|o| | | | | | | |]; try discriminate; cbn [stage] in S.
      * destruct (d_map c id) as [o|] eqn:Em; intros E; injection E as <- <-.
        -- exists (h ++ [(k, E_has id true)]). eapply (inv_goes tr c h k _ PStart (PFound o)); [exact I|exact Hk|no_end|right; exists id; eapply Lk, Em| |no_own|].
           ++ rewrite S. cbn. split; [reflexivity|]. exact (v_map _ _ _ I _ _ Em).
           ++ intros o' E. injection E as <-. exists id. exact Em.
        -- exists (h ++ [(k, E_has id false)]). eapply (inv_goes tr c h k _ PStart (PEnd ANotFound)); [exact I|exact Hk|no_end|right; exists id; apply Ln, Em|rewrite S; cbn; constructor|no_own|discriminate].
      * destruct (nth_error (d_objs c) o) as [b|] eqn:Eb; [|discriminate]. destruct (o_data b && ok); intros E; injection E as <- <-.
        -- eapply (inv_call tr c h k _ (PFound o)); [exact I|exact Hk|no_end|reflexivity|reflexivity|exact Eb|reflexivity].
        -- exists (h ++ []). eapply (inv_goes tr c h k _ _ (PEnd AFailed)); [exact I|exact Hk|no_end|left; reflexivity| |no_own|discriminate].
           cbn [map]. rewrite app_nil_r. destruct S as (-> & _). constructor.
Qed.
Lemma inv_exec P tr c : dexec P tr c -> exists h, inv tr c h.
Proof.
  induction 1 as [|tr c x ls c' D (h & I) Hok St]; [exists []; exact inv_start|]. exact (inv_step _ _ _ _ _ _ I St).
Qed.
Lemma one_order P tr c : dexec P tr c -> exists h, legal h /\ (forall id, at_id id h = found c id) /\
  (forall i r a, nth_error (d_reqs c) i = Some (r, PEnd a) -> does r a (effects i h)) /\ (forall i j, before tr i j -> in_order h i j).
Proof.
  intros D. destruct (inv_exec _ _ _ D) as (h & I). exists h. repeat split.
  - exact (v_legal _ _ _ I).
  - exact (v_at _ _ _ I).
  - intros i r a Hi. exact (v_reqs _ _ _ I _ _ _ Hi).
  - exact (v_rt _ _ _ I).
Qed.
