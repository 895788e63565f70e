(** Model of the recycled decoders of /repo/msgppool.go:82-135 and of the calls that use them: Lists.Load
    (lists.go:146-225), Restore (backup/restore.go:54-56) and the restore of one list (restore.go:97, which leaves
    its decoder to the garbage collector).  A decoder (msgp.Reader, outside library) reads ahead from its source as
    much as it likes and gives out what it holds; Reset drops what it holds.  Values are read as pieces of bytes.
    sync.Pool gives any of its decoders or a new one, and may drop some.  The source of a call is the bytes it
    will give (decompressed). *)
From Verif.Lib Require Import Prelude ListAux.
Open Scope nat_scope.

(** msgppool.go:83-85: what is left of its source (None: nil), and what it holds *)
Record decoder := mkD { d_src : option (list N); d_held : list N }.
Inductive dpc := DNew | DRead (a : nat) | DEnd.
(** [dc_src]: what the call gives its decoder; [dc_close]: it calls Close when it ends; [dc_got]: what it has read *)
Record dcall := mkDC { dc_src : list N; dc_close : bool; dc_pc : dpc; dc_got : list N }.
(** [ds_n]: decoders made so far; [ds_bad]: a read from a nil source, which panics *)
Record dcfg := mkDS { ds_dec : nat -> decoder; ds_n : nat; ds_pool : list nat; ds_calls : nat -> option dcall; ds_bad : bool }.
Inductive dchoice :=
| D_call (i : nat) (src : list N) (close : bool)
| D_take (i : nat) (p : option nat)    (* the place in the pool, or a new one *)
| D_fill (i k : nat)                   (* the decoder reads ahead *)
| D_read (i k : nat)                   (* the call reads [k] bytes *)
| D_end (i : nat)                      (* the call is done, or fails *)
| D_gc (p : nat)                       (* the pool drops a decoder *)
| D_again (a : nat).                   (* Close of a decoder for the second time: nobody does so *)

Definition put_n {A} (f : nat -> A) (n : nat) (v : A) : nat -> A := fun m => if m =? n then v else f m.
(** msgppool.go:94-98, 87-92: Reset *)
Definition reset_to (s : dcfg) (i a n : nat) (pool : list nat) (c : dcall) : dcfg :=
  mkDS (put_n (ds_dec s) a (mkD (Some (dc_src c)) [])) n pool (put_n (ds_calls s) i (Some (mkDC (dc_src c) (dc_close c) (DRead a) (dc_got c)))) (ds_bad s).
(** msgppool.go:129-135 *)
Definition d_close (s : dcfg) (a : nat) : dcfg := mkDS (put_n (ds_dec s) a (mkD None [])) (ds_n s) (a :: ds_pool s) (ds_calls s) (ds_bad s).
Definition dfire (s : dcfg) (x : dchoice) : option dcfg :=
  match x with
  | D_call i src cl =>
    match ds_calls s i with
    | None => Some (mkDS (ds_dec s) (ds_n s) (ds_pool s) (put_n (ds_calls s) i (Some (mkDC src cl DNew []))) (ds_bad s))
    | Some _ => None
    end
  | D_take i p =>
    match ds_calls s i with
    | Some c =>
      match dc_pc c, p with
      | DNew, None => Some (reset_to s i (ds_n s) (S (ds_n s)) (ds_pool s) c)                       (* msgppool.go:100-106 *)
      | DNew, Some k => match nth_error (ds_pool s) k with Some a => Some (reset_to s i a (ds_n s) (del_nth k (ds_pool s)) c) | None => None end
      | _, _ => None
      end
    | None => None
    end
  | D_fill i k =>
    match ds_calls s i with
    | Some (mkDC _ _ (DRead a) _) =>
      match d_src (ds_dec s a) with
      | Some l => Some (mkDS (put_n (ds_dec s) a (mkD (Some (skipn k l)) (d_held (ds_dec s a) ++ firstn k l))) (ds_n s) (ds_pool s) (ds_calls s) (ds_bad s))
      | None => Some (mkDS (ds_dec s) (ds_n s) (ds_pool s) (ds_calls s) true)
      end
    | _ => None
    end
  | D_read i k =>
    match ds_calls s i with
    | Some (mkDC src cl (DRead a) got) =>
      if k <=? length (d_held (ds_dec s a)) then
        Some (mkDS (put_n (ds_dec s) a (mkD (d_src (ds_dec s a)) (skipn k (d_held (ds_dec s a))))) (ds_n s) (ds_pool s)
                (put_n (ds_calls s) i (Some (mkDC src cl (DRead a) (got ++ firstn k (d_held (ds_dec s a)))))) (ds_bad s))
      else None
    | _ => None
    end
  | D_end i =>
    match ds_calls s i with
    | Some (mkDC src cl (DRead a) got) =>
      let s := mkDS (ds_dec s) (ds_n s) (ds_pool s) (put_n (ds_calls s) i (Some (mkDC src cl DEnd got))) (ds_bad s) in
      Some (if cl then d_close s a else s)
    | _ => None
    end
  | D_gc k => Some (mkDS (ds_dec s) (ds_n s) (del_nth k (ds_pool s)) (ds_calls s) (ds_bad s))
  | D_again a => Some (d_close s a)
  end.
Fixpoint dplay (s : dcfg) (l : list dchoice) : option dcfg :=
  match l with
  | [] => Some s
  | x :: l => match dfire s x with Some s => dplay s l | None => None end
  end.
Definition dstart : dcfg := mkDS (fun _ => mkD None []) 0 [] (fun _ => None) false.
