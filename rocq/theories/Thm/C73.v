(** C73: scopes, and the tokens that the server makes. *)
From Coq Require Import Strings.String Strings.Ascii.
From Verif.Lib Require Import Prelude ListAux Bytes.
From Verif.Model Require Import Keys Access Tokens.
From Verif.Spec Require Import TokenSpec.
From Verif.Proof Require Import TokenP.
Open Scope Z_scope.

(** with keys configured, whatever a client gets run but the documentation is covered by a token it was given: not
    expired, with a scope that is enough for every call the handler makes, and the handler sees its restrictions *)
Theorem C73_calls : forall grants srv l held a e c, jwt_on srv = true ->
  In (a, e, c) (snd (client grants srv held l)) -> e <> Docs ->
  In a l /\ e = a_to a /\ exists t s, In t (fst (client grants srv held l)) /\ c = ctx_of t /\ alive (a_time a) t /\
    grants (tk_scopes t) (written_as s) = true /\ forall d, In d (db_calls e) -> suffices s d.
Proof. intros grants srv l held a e c J. exact (c73_calls grants srv l J held a e c). Qed.
Print Assumptions C73_calls.

(** without a live token for manage a client comes to no other tokens *)
Theorem C73_closed : forall grants srv l held, jwt_on srv = true ->
  (forall a t, In a l -> In t held -> manages grants t -> ~ alive (a_time a) t) -> fst (client grants srv held l) = held.
Proof. intros grants srv l held J. exact (c73_closed grants srv l J held). Qed.
Print Assumptions C73_closed.

(** a started server never makes tokens, as only tests set the variable that allows it *)
Theorem C73_never : forall grants path public private srv, start false path public private = Some srv ->
  forall l held, fst (client grants srv held l) = held.
Proof. exact c73_never. Qed.
Print Assumptions C73_never.

(** when the program exits at its start, and what holds otherwise *)
Theorem C73_start : forall creation path public private,
  (start creation path public private = None <-> (path <> [] /\ public = O) \/ (creation = true /\ private = false)) /\
  (forall srv, start creation path public private = Some srv -> jwt_on srv = true <-> path <> []).
Proof. intros. split; [exact (c73_start creation path public private)|]. intros srv S. exact (proj1 (c73_started _ _ _ _ _ S)). Qed.
Print Assumptions C73_start.

(** without a path for keys every request is let in, and restrictions are not looked at *)
Theorem C73_open : forall grants srv, jwt_on srv = false -> forall l held,
  Forall2 (fun a x => x = (a, a_to a, NoToken)) l (snd (client grants srv held l)).
Proof. exact c73_open. Qed.
Print Assumptions C73_open.

(** if tokens are made, one live token for manage, whatever its restrictions, is enough for a token of any kind *)
Theorem C73_manage : forall grants srv held i t now scopes lists elems m, jwt_make srv = true -> private_key srv = true ->
  nth_error held i = Some t -> manages grants t -> alive now t -> 1 <= m ->
  fst (client grants srv held [mkAct now JwtMake (Some i) (mkParams (Some scopes) lists elems (Some (Some m)))]) =
  held ++ [mkTok scopes lists elems (expiry now m)].
Proof. exact c73_manage. Qed.
Print Assumptions C73_manage.

(** the token ends so many minutes later, up to some 292 years; beyond, up to twice that, it has ended already *)
Theorem C73_expiry : forall now m, 1 <= m <= 153722867 -> expiry now m = now / 1000000000 + 60 * m.
Proof. exact c73_expiry. Qed.
Print Assumptions C73_expiry.
Theorem C73_dead : forall now m p_scope lists elems srv t, 153722868 <= m <= 307445734 ->
  make srv now (mkParams p_scope lists elems (Some (Some m))) = Some t -> ~ alive now t.
Proof.
  intros now m sc li el srv t M K. unfold make, expire_of in K. cbn [p_expire] in K. destruct (m <? 1); [discriminate|].
  destruct (_ || _); [discriminate|]. inv K. unfold alive. cbn [tk_exp]. pose proof (c73_dead now m M). generalize dependent (expiry now m). intros. lia.
Qed.
Print Assumptions C73_dead.

(** what is asked for is what is made: defaults, refused lengths, and lists by their names *)
Theorem C73_params : forall srv now p t, make srv now p = Some t ->
  jwt_make srv = true /\ private_key srv = true /\
  tk_scopes t = match p_scope p with Some s => s | None => lit "api:read" end /\
  tk_lists t = p_lists p /\ tk_elems t = p_elems p /\
  exists m, 1 <= m /\ tk_exp t = expiry now m /\ (p_expire p = Some (Some m) \/ p_expire p = None /\ m = 24 * 60).
Proof.
  intros srv now p t K. unfold make in K. destruct (expire_of p) as [m|] eqn:E; [|discriminate].
  destruct (private_key srv), (jwt_make srv); try discriminate. inv K. cbn. repeat (split; [reflexivity|]).
  exists m. unfold expire_of in E. destruct (p_expire p) as [[m0|]|] eqn:P; try discriminate.
  - destruct (m0 <? 1) eqn:L; [discriminate|]. inv E. split; [lia|]. auto.
  - inv E. split; [lia|]. auto.
Qed.
Print Assumptions C73_params.
Theorem C73_lists : forall ids elems scopes exp id, ids <> [] -> Forall plain ids ->
  (has_list (ctx_of (mkTok scopes (Some (commas ids)) elems exp)) [id] = true <-> In id ids).
Proof. intros ids elems scopes exp id. exact (c73_lists ids elems scopes exp id). Qed.
Print Assumptions C73_lists.
(** a list with a comma in its name is out of reach for every token that is restricted to lists *)
Theorem C73_unnamed : forall t v id, tk_lists t = Some v -> In ","%char id -> has_list (ctx_of t) [id] = false.
Proof. exact c73_unnamed. Qed.
Print Assumptions C73_unnamed.

Definition grants73 (scopes s : bytes) : bool :=
  match drop_prefix s scopes with Some _ => true | None => false end || beq scopes (lit "api:read " ++ s).
Definition reader : tok := mkTok (lit "api:read") (Some (lit "a,b")) None 2000.
Definition manager : tok := mkTok (lit "api:manage") (Some (lit "a")) None 2000.
Definition noparams : params := mkParams None None None None.
Definition srv73 : server := mkServer true true true.
(** 1500 s after 1970: a read, a delete that is refused, a token that is refused; after 2001 s nothing *)
Example C73_reader_ex : client grants73 srv73 [reader]
    [mkAct 1500000000000 ElemGet (Some 0%nat) noparams; mkAct 1500000000000 ElemDelete (Some 0%nat) noparams;
     mkAct 1500000000000 JwtMake (Some 0%nat) noparams; mkAct 1500000000000 ListGet None noparams;
     mkAct 2001000000000 ListGet (Some 0%nat) noparams; mkAct 2000999999999 ListGet (Some 0%nat) noparams] =
  ([reader], [(mkAct 1500000000000 ElemGet (Some 0%nat) noparams, ElemGet, ctx_of reader);
              (mkAct 2000999999999 ListGet (Some 0%nat) noparams, ListGet, ctx_of reader)]).
Proof. vm_compute. reflexivity. Qed.
Example C73_start_ex : start true (lit "jwtkey") 1 true = Some srv73 /\ start false (lit "jwtkey") 1 true = Some (mkServer true false false) /\
  start false [] 0 false = Some (mkServer false false false) /\ start false (lit "jwtkey") 0 true = None.
Proof. repeat split. Qed.
Example C73_lists_ex : Forall plain [lit "game-75"; lit "game-76"] /\ commas [lit "game-75"; lit "game-76"] = lit "game-75,game-76".
Proof.
  split; [|reflexivity].
  apply Forall_cons; [|apply Forall_cons; [|apply Forall_nil]];
    intros c H; cbn in H; repeat (destruct H as [<-|H]; [vm_compute; split; [split|]; discriminate|]); contradiction.
Qed.

(** restrictions are not handed on: who manages list "a" only gets a token for every list *)
Theorem C73_restrictions_refuted : exists grants srv t a, manages grants t /\ has_list (ctx_of t) [lit "b"] = false /\
  exists t', fst (client grants srv [t] [a]) = [t; t'] /\ manages grants t' /\ alive (a_time a) t' /\ has_list (ctx_of t') [lit "b"] = true.
Proof.
  exists grants73, srv73, manager, (mkAct 1500000000000 JwtMake (Some 0%nat) (mkParams (Some (lit "api:manage")) None None None)).
  split; [reflexivity|]. split; [reflexivity|].
  exists (mkTok (lit "api:manage") None None 87900). repeat split.
Qed.
Print Assumptions C73_restrictions_refuted.
(** a token that is to last for 293 years has ended before it is handed out *)
Theorem C73_expiry_refuted : exists srv now m t, 1 <= m /\
  make srv now (mkParams None None None (Some (Some m))) = Some t /\ ~ alive now t.
Proof.
  exists srv73, 1600000000000000000, 154000000, (mkTok (lit "api:read") None None (expiry 1600000000000000000 154000000)).
  split; [lia|]. split; [reflexivity|]. unfold alive. vm_compute. intros H. discriminate H.
Qed.
Print Assumptions C73_expiry_refuted.
(** an empty restriction is a restriction: no list of the server is left *)
Example C73_empty_ex : has_list (ctx_of (mkTok [] (Some []) None 0)) [lit "a"] = false /\ has_list (ctx_of (mkTok [] None None 0)) [lit "a"] = true.
Proof. split; reflexivity. Qed.
