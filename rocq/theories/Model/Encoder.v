(** Model of the recycled encoders of /repo/msgppool.go and of the calls that use them: Segments.Save (segments.go:837-852),
    saveElements (segment.go:233-249) and Lists.Save (lists.go:88-144).  A bytes.Buffer is an array and a length, and a slice of
    it is a piece of that array, so a slice shows what is written to the array later.  The encoder (msgp.Writer) keeps bytes
    back and hands them to what it writes to when it likes; it is not in /repo.  sync.Pool gives any of its encoders or a new
    one.  Compression of the list file (lists.go:99-107) is left out: bytes go to the file as they are. *)
From Verif.Lib Require Import Prelude ListAux.
Open Scope nat_scope.

(** what an encoder writes to: its own buffer, the file of a call, nothing *)
Inductive target := TBuf | TFile (i : nat) | TNil.
(** msgppool.go:16-19; the array and length of the bytes.Buffer, what the msgp.Writer keeps back *)
Record encoder := mkE { e_arr : nat; e_len : nat; e_to : target; e_pend : list N }.

(** what a call writes, in pieces: the version and what EncodeMsg writes *)
Inductive job := JBlob (ps : list (list N)) | JFile (ps : list (list N)).
Inductive spc :=
| SNew
| SEnc (a : nat) (rest : list (list N))
| SSet (a : nat)               (** in store.Set *)
| SClose (a : nat) (ok : bool)   (** before the deferred Close *)
| SEnd (ok : bool).
(** [c_slice]: the slice that was given to Set, as array and length *)
Record call := mkC { c_job : job; c_pc : spc; c_slice : option (nat * nat) }.
(** [s_log]: what the store took of the slices, by call; [s_file]: what the files got; [s_bad]: a write to a nil writer,
    which panics *)
Record scfg := mkS {
  s_mem : nat -> list N; s_fresh : nat; s_enc : list encoder; s_pool : list nat;
  s_calls : list call; s_log : list (nat * list N); s_file : nat -> list N; s_bad : bool }.

Definition at_n {A} (f : nat -> A) (n : nat) (v : A) : nat -> A := fun m => if n =? m then v else f m.
Fixpoint drop_nth {A} (n : nat) (l : list A) : list A :=
  match l with [] => [] | x :: r => match n with O => r | S n => x :: drop_nth n r end end.
(** bytes written at a place of an array *)
Definition over_at (n : nat) (v l : list N) : list N := firstn n l ++ v ++ skipn (n + length v) l.

Definition with_call (c : scfg) (i : nat) (x : call) : scfg :=
  mkS (s_mem c) (s_fresh c) (s_enc c) (s_pool c) (upd_nth i (fun _ => x) (s_calls c)) (s_log c) (s_file c) (s_bad c).
Definition with_enc (c : scfg) (a : nat) (e : encoder) : scfg :=
  mkS (s_mem c) (s_fresh c) (upd_nth a (fun _ => e) (s_enc c)) (s_pool c) (s_calls c) (s_log c) (s_file c) (s_bad c).

(** bytes.Buffer.Write: in place if there is room, else in a new array with [room] bytes to spare *)
Definition buf_write (c : scfg) (a : nat) (e : encoder) (v : list N) (room : nat) : scfg :=
  if e_len e + length v <=? length (s_mem c (e_arr e)) then
    with_enc (mkS (at_n (s_mem c) (e_arr e) (over_at (e_len e) v (s_mem c (e_arr e)))) (s_fresh c) (s_enc c) (s_pool c) (s_calls c) (s_log c) (s_file c) (s_bad c))
      a (mkE (e_arr e) (e_len e + length v) (e_to e) [])
  else
    with_enc (mkS (at_n (s_mem c) (s_fresh c) (firstn (e_len e) (s_mem c (e_arr e)) ++ v ++ repeat 0%N room)) (S (s_fresh c)) (s_enc c) (s_pool c) (s_calls c) (s_log c) (s_file c) (s_bad c))
      a (mkE (s_fresh c) (e_len e + length v) (e_to e) []).
(** msgp.Writer.Flush; msgppool.go:63-66, 69-71 *)
Definition flush (c : scfg) (a : nat) (room : nat) : option scfg :=
  match nth_error (s_enc c) a with
  | None => None
  | Some e =>
    match e_to e with
    | TBuf => Some (buf_write c a e (e_pend e) room)
    | TFile i => Some (with_enc (mkS (s_mem c) (s_fresh c) (s_enc c) (s_pool c) (s_calls c) (s_log c) (at_n (s_file c) i (s_file c i ++ e_pend e)) (s_bad c))
                        a (mkE (e_arr e) (e_len e) (e_to e) []))
    | TNil => Some (mkS (s_mem c) (s_fresh c) (s_enc c) (s_pool c) (s_calls c) (s_log c) (s_file c) true)
    end
  end.

(** msgppool.go:28-36: a new one has a buffer of its own, here with room for [room] bytes *)
Definition new_enc (c : scfg) (room : nat) : nat * scfg :=
  (length (s_enc c),
   mkS (at_n (s_mem c) (s_fresh c) (repeat 0%N room)) (S (s_fresh c)) (s_enc c ++ [mkE (s_fresh c) 0 TBuf []]) (s_pool c) (s_calls c) (s_log c) (s_file c) (s_bad c)).
(** sync.Pool.Get *)
Definition pool_get (c : scfg) (p : option nat) (room : nat) : option (nat * scfg) :=
  match p with
  | None => Some (new_enc c room)
  | Some n => match nth_error (s_pool c) n with
              | Some a => Some (a, mkS (s_mem c) (s_fresh c) (s_enc c) (drop_nth n (s_pool c)) (s_calls c) (s_log c) (s_file c) (s_bad c))
              | None => None
              end
  end.
Definition pieces (j : job) : list (list N) := match j with JBlob ps | JFile ps => ps end.
(** msgppool.go:21-26 NewWriterMsg; lists.go:96 ReplaceWriter *)
Definition take (c : scfg) (i : nat) (j : job) (p : option nat) (room : nat) : option scfg :=
  match pool_get c p room with
  | None => None
  | Some (a, c) =>
    match nth_error (s_enc c) a with
    | None => None
    | Some e =>
      Some (with_call (with_enc c a (mkE (e_arr e) 0 (match j with JBlob _ => TBuf | JFile _ => TFile i end) [])) i (mkC j (SEnc a (pieces j)) None))
    end
  end.
(** msgppool.go:76-80 Close *)
Definition close (c : scfg) (a : nat) : option scfg :=
  match nth_error (s_enc c) a with
  | None => None
  | Some e =>
    let c := with_enc c a (mkE (e_arr e) 0 TNil []) in
    Some (mkS (s_mem c) (s_fresh c) (s_enc c) (a :: s_pool c) (s_calls c) (s_log c) (s_file c) (s_bad c))
  end.
Definition shown (c : scfg) (s : nat * nat) : list N := firstn (snd s) (s_mem c (fst s)).

Inductive echoice :=
| X_call (j : job)
| X_take (i : nat) (p : option nat) (room : nat)
| X_write (i : nat)                   (** one piece to the encoder *)
| X_spill (i room : nat)              (** the encoder hands on what it kept back *)
| X_fail (i : nat)                    (** encoding fails *)
| X_flush (i room : nat)              (** all is encoded *)
| X_store (i : nat)                   (** the store, in Set, takes the bytes *)
| X_ret (i : nat) (ok : bool)         (** Set returns *)
| X_close (i : nat)
| X_gc (n : nat)                      (** the pool drops an encoder *)
| X_late (i : nat)                    (** a store that kept the slice takes the bytes after Set has returned *)
| X_again (i : nat) (a : nat).        (** Close a second time *)

Definition estep (c : scfg) (x : echoice) : option scfg :=
  match x with
  | X_call j => Some (mkS (s_mem c) (s_fresh c) (s_enc c) (s_pool c) (s_calls c ++ [mkC j SNew None]) (s_log c) (s_file c) (s_bad c))
  | X_take i p room => match nth_error (s_calls c) i with Some (mkC j SNew _) => take c i j p room | _ => None end
  | X_write i =>
    match nth_error (s_calls c) i with
    | Some (mkC j (SEnc a (v :: r)) s) =>
      match nth_error (s_enc c) a with
      | Some e => Some (with_call (with_enc c a (mkE (e_arr e) (e_len e) (e_to e) (e_pend e ++ v))) i (mkC j (SEnc a r) s))
      | None => None
      end
    | _ => None
    end
  | X_spill i room => match nth_error (s_calls c) i with Some (mkC j (SEnc a r) s) => flush c a room | _ => None end
  | X_fail i => match nth_error (s_calls c) i with Some (mkC j (SEnc a r) s) => Some (with_call c i (mkC j (SClose a false) s)) | _ => None end
  | X_flush i room =>
    match nth_error (s_calls c) i with
    | Some (mkC j (SEnc a []) s) =>
      match flush c a room with
      | Some c =>
        match j, nth_error (s_enc c) a with
        | JBlob _, Some e => Some (with_call c i (mkC j (SSet a) (Some (e_arr e, e_len e))))
        | JFile _, Some _ => Some (with_call c i (mkC j (SClose a true) s))
        | _, None => None
        end
      | None => None
      end
    | _ => None
    end
  | X_store i =>
    match nth_error (s_calls c) i with
    | Some (mkC j (SSet a) (Some s)) => Some (mkS (s_mem c) (s_fresh c) (s_enc c) (s_pool c) (s_calls c) ((i, shown c s) :: s_log c) (s_file c) (s_bad c))
    | _ => None
    end
  | X_ret i ok => match nth_error (s_calls c) i with Some (mkC j (SSet a) s) => Some (with_call c i (mkC j (SClose a ok) s)) | _ => None end
  | X_close i =>
    match nth_error (s_calls c) i with
    | Some (mkC j (SClose a ok) s) => match close c a with Some c => Some (with_call c i (mkC j (SEnd ok) s)) | None => None end
    | _ => None
    end
  | X_gc n => if n <? length (s_pool c) then Some (mkS (s_mem c) (s_fresh c) (s_enc c) (drop_nth n (s_pool c)) (s_calls c) (s_log c) (s_file c) (s_bad c)) else None
  | X_late i =>
    match nth_error (s_calls c) i with
    | Some (mkC j (SClose _ _) (Some s)) | Some (mkC j (SEnd _) (Some s)) =>
      Some (mkS (s_mem c) (s_fresh c) (s_enc c) (s_pool c) (s_calls c) ((i, shown c s) :: s_log c) (s_file c) (s_bad c))
    | _ => None
    end
  | X_again i a => match nth_error (s_calls c) i with Some (mkC j (SEnd ok) s) => close c a | _ => None end
  end.
(** a process begins with no encoders *)
Definition sstart : scfg := mkS (fun _ => []) 0 [] [] [] [] (fun _ => []) false.
Inductive encs (ok : echoice -> Prop) : scfg -> Prop :=
| encs_start : encs ok sstart
| encs_step c x c' : encs ok c -> ok x -> estep c x = Some c' -> encs ok c'.
