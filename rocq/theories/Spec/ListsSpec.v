(** Orders, pages and matches of lists, independent of the code's algorithms. *)
From Coq Require Import Strings.Ascii.
From Verif.Lib Require Import Prelude Bytes.
From Verif.Model Require Import Lists.
Open Scope nat_scope.

(** the byte order of IDs: a proper prefix comes first, otherwise the first difference decides *)
Definition precedes (a b : bytes) : Prop :=
  (exists c r, b = a ++ c :: r) \/
  (exists p c r d q, a = p ++ c :: r /\ b = p ++ d :: q /\ (N_of_ascii c < N_of_ascii d)%N).

(** [L] lists the IDs of [ls] that satisfy [P] in ascending order *)
Definition ascending (ls : list lst) (P : bytes -> Prop) (L : list bytes) : Prop :=
  StronglySorted precedes L /\ forall id, In id L <-> (exists l, In l ls /\ lid l = id) /\ P id.

(** the IDs that satisfy [P], in the order in which the map enumerates the lists *)
Inductive visited (P : bytes -> Prop) : list lst -> list bytes -> Prop :=
| visited_nil : visited P [] []
| visited_in : forall l ls ids, P (lid l) -> visited P ls ids -> visited P (l :: ls) (lid l :: ids)
| visited_out : forall l ls ids, ~ P (lid l) -> visited P ls ids -> visited P (l :: ls) ids.

(** a collection holds each ID once *)
Definition distinct (ls : list lst) : Prop := NoDup (map lid ls).

(** the members of [m] with the given IDs, in the order of the IDs *)
Inductive members (m : list lst) : list bytes -> list lst -> Prop :=
| members_nil : members m [] []
| members_in : forall id ids l ls, In l m -> lid l = id -> members m ids ls -> members m (id :: ids) (l :: ls)
| members_out : forall id ids ls, (forall l, In l m -> lid l <> id) -> members m ids ls -> members m (id :: ids) ls.

(** the value of a metadata field; a missing field reads as the empty string *)
Definition field (meta : list (bytes * bytes)) (k v : bytes) : Prop :=
  In (k, v) meta \/ (v = [] /\ forall w, ~ In (k, w) meta).

(** a list is selected by its set, or by its metadata if a query is given *)
Definition selected (q : list (bytes * bytes)) (sets : list bytes) (l : lst) : Prop :=
  In (lset l) sets \/
  (q <> [] /\ exists meta, lmeta l = Some meta /\ forall k v, In (k, v) q -> field meta k v).

(** A client that asks for pages of [n], each time from the last ID it got, until a page is
    empty.  Each call may see the lists in another order. *)
Inductive walk (ls : list lst) (n : Z) : bytes -> list lst -> Prop :=
| walk_end : forall enum from p, Permutation enum ls ->
    sorted_after enum enum from n = ([], p) -> walk ls n from []
| walk_page : forall enum from p r l rest, Permutation enum ls ->
    sorted_after enum enum from n = (r ++ [l], p) -> walk ls n (lid l) rest -> walk ls n from (r ++ [l] ++ rest).

(** changes to a collection *)
Inductive change := Put (l : lst) | Drop (id : bytes).
Definition about (id : bytes) (c : change) : Prop :=
  match c with Put l => lid l = id | Drop d => d = id end.
Definition apply (m : list lst) (c : change) : list lst :=
  match c with Put l => add m [l] | Drop id => delete m id end.

(** [l] is what the last change to [id] put there *)
Definition latest (cs : list change) (id : bytes) (l : lst) : Prop :=
  exists old new, cs = old ++ Put l :: new /\ lid l = id /\ forall c, In c new -> ~ about id c.
