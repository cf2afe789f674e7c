(** Model of the analysis database, /repo/lang/fall/src/analysis/db.rs: memoised queries executed by
    any number of threads. *)
From Coq Require Import List Arith Bool.
From Verif Require Import Base.
Import ListNotations.

Section Db.
(** The query keys of all nine kinds together (db.rs 18-26), their results and the diagnostics. *)
Variables K V D : Type.
Variable K_eqb : K -> K -> bool.
(** Which of the nine caches (and mutexes) a key belongs to: [QueryCache::get_cache], db.rs 129-181 *)
Variable kind : K -> nat.

(** The body of a query, [OnceQExecutor::execute] (db.rs 87-91): it computes from the immutable
    file, may call [db.get] and continue with the answer, and finally returns its result together
    with the diagnostics pushed into its own sink; or it panics. *)
Inductive prog : Type :=
| Ret (v : V) (ds : list D)
| Ask (k : K) (c : V -> prog)
| Fail.

Variable exec : K -> prog.

(** A caller of the public API (mod.rs 38-79): it calls queries one after another, each choice
    depending on earlier answers, and may copy the list of diagnostics (mod.rs 70). *)
Inductive client : Type :=
| CRet
| CAsk (k : K) (c : V -> client)
| CCollect (c : list D -> client).

(** What a thread is about to do, between two lock operations; db.rs 105-126. *)
Inductive ctl : Type :=
| Client (c : client)
| Collecting (c : list D -> client)       (* mod.rs 70, holds the mutex of the diagnostics *)
| Look (k : K)                            (* 106: [lock()] *)
| Looking (k : K)                         (* 106: holds the cache's mutex, [get(&self)] *)
| Run (k : K) (p : prog)                  (* 112-115: no mutex held *)
| Commit (k : K) (v : V) (ds : list D)    (* 117: [lock()] *)
| Committing (k : K) (v : V) (ds : list D)(* 119: holds the cache's mutex, [entry(key)] *)
| Recording (k : K) (v : V) (ds : list D) (* 121: vacant; [diagnostics.lock()] *)
| Extending (k : K) (v : V) (ds : list D) (* 121: holds both, [extend] *)
| Storing (k : K) (v : V)                 (* 122: holds the cache's mutex, [insert] *)
| Answer (k : K) (v : V)                  (* 107, 122 or 124: returning to the caller *)
| Dead.                                   (* the query panicked and the thread unwound *)

(** Who waits for the answer: an enclosing query or the client. *)
Inductive frame : Type :=
| FQuery (k : K) (c : V -> prog)
| FClient (c : V -> client).

(** What a client has observed, newest first. *)
Inductive event : Type :=
| EAnswer (k : K) (v : V)
| ESnapshot (ds : list D).

Record thread := Thread { t_ctl : ctl; t_stack : list frame; t_log : list event }.

(** The shared part of [DB] (db.rs 12-27).  A mutex is [None] or the thread holding it.  No mutex is
    ever poisoned: the only panic is in [Run], where none is held. *)
Record shared := Shared {
  s_cache : list (K * V);
  s_lock : nat -> option nat;
  s_diags : list D;
  s_dlock : option nat }.

Fixpoint lookup (k : K) (l : list (K * V)) : option V :=
  match l with
  | [] => None
  | (k', v) :: r => if K_eqb k k' then Some v else lookup k r
  end.

Definition set_lock (q : nat) (o : option nat) (l : nat -> option nat) : nat -> option nat :=
  fun j => if j =? q then o else l j.

(** One step of thread [i]; [None] when it is finished or waits for a mutex.  db.rs 105-126. *)
Definition tstep (i : nat) (s : shared) (t : thread) : option (shared * thread) :=
  let goto c := Thread c (t_stack t) (t_log t) in
  let lock k c :=
    match s_lock s (kind k) with
    | Some _ => None
    | None => Some (Shared (s_cache s) (set_lock (kind k) (Some i) (s_lock s)) (s_diags s) (s_dlock s), goto c)
    end in
  let unlock k := Shared (s_cache s) (set_lock (kind k) None (s_lock s)) (s_diags s) (s_dlock s) in
  match t_ctl t with
  | Client CRet => None
  | Client (CAsk k c) => Some (s, Thread (Look k) (FClient c :: t_stack t) (t_log t))
  | Client (CCollect c) =>
      match s_dlock s with
      | Some _ => None
      | None => Some (Shared (s_cache s) (s_lock s) (s_diags s) (Some i), goto (Collecting c))
      end
  | Collecting c =>
      Some (Shared (s_cache s) (s_lock s) (s_diags s) None,
            Thread (Client (c (s_diags s))) (t_stack t) (ESnapshot (s_diags s) :: t_log t))
  | Look k => lock k (Looking k)
  | Looking k =>
      match lookup k (s_cache s) with
      | Some v => Some (unlock k, goto (Answer k v))
      | None => Some (unlock k, goto (Run k (exec k)))
      end
  | Run k (Ask k' c) => Some (s, Thread (Look k') (FQuery k c :: t_stack t) (t_log t))
  | Run k (Ret v ds) => Some (s, goto (Commit k v ds))
  | Run k Fail => Some (s, Thread Dead [] (t_log t))
  | Commit k v ds => lock k (Committing k v ds)
  | Committing k v ds =>
      match lookup k (s_cache s) with
      | Some w => Some (unlock k, goto (Answer k w))
      | None => Some (s, goto (Recording k v ds))
      end
  | Recording k v ds =>
      match s_dlock s with
      | Some _ => None
      | None => Some (Shared (s_cache s) (s_lock s) (s_diags s) (Some i), goto (Extending k v ds))
      end
  | Extending k v ds =>
      Some (Shared (s_cache s) (s_lock s) (s_diags s ++ ds) None, goto (Storing k v))
  | Storing k v =>
      Some (Shared ((k, v) :: s_cache s) (set_lock (kind k) None (s_lock s)) (s_diags s) (s_dlock s),
            goto (Answer k v))
  | Answer k v =>
      match t_stack t with
      | [] => None
      | FQuery k0 c :: r => Some (s, Thread (Run k0 (c v)) r (t_log t))
      | FClient c :: r => Some (s, Thread (Client (c v)) r (EAnswer k v :: t_log t))
      end
  | Dead => None
  end.

(** The whole system: the shared part and all threads. *)
Record state := State { st_shared : shared; st_threads : list thread }.

(** The scheduler picks any thread that can move. *)
Definition step_at (i : nat) (s : state) : option state :=
  match nth_error (st_threads s) i with
  | None => None
  | Some t =>
      match tstep i (st_shared s) t with
      | None => None
      | Some (sh, t') => Some (State sh (set_nth i t' (st_threads s)))
      end
  end.

(** A schedule is a list of thread numbers; a number whose thread cannot move is skipped. *)
Fixpoint run_schedule (l : list nat) (s : state) : state :=
  match l with
  | [] => s
  | i :: r => match step_at i s with Some s' => run_schedule r s' | None => run_schedule r s end
  end.

(** [DB::new] (db.rs 30-47) and the threads started on it. *)
Definition db_new : shared := Shared [] (fun _ => None) [] None.
Definition start (cs : list client) : state :=
  State db_new (map (fun c => Thread (Client c) [] []) cs).

End Db.

Arguments Ret {K V D} v ds.
Arguments Ask {K V D} k c.
Arguments Fail {K V D}.
Arguments CRet {K V D}.
Arguments CAsk {K V D} k c.
Arguments CCollect {K V D} c.
Arguments Client {K V D} c.
Arguments Collecting {K V D} c.
Arguments Look {K V D} k.
Arguments Looking {K V D} k.
Arguments Run {K V D} k p.
Arguments Commit {K V D} k v ds.
Arguments Committing {K V D} k v ds.
Arguments Recording {K V D} k v ds.
Arguments Extending {K V D} k v ds.
Arguments Storing {K V D} k v.
Arguments Answer {K V D} k v.
Arguments Dead {K V D}.
Arguments FQuery {K V D} k c.
Arguments FClient {K V D} c.
Arguments EAnswer {K V D} k v.
Arguments ESnapshot {K V D} ds.
Arguments Thread {K V D} t_ctl t_stack t_log.
Arguments t_ctl {K V D} t.
Arguments t_stack {K V D} t.
Arguments t_log {K V D} t.
Arguments Shared {K V D} s_cache s_lock s_diags s_dlock.
Arguments s_cache {K V D} s.
Arguments s_lock {K V D} s.
Arguments s_diags {K V D} s.
Arguments s_dlock {K V D} s.
Arguments State {K V D} st_shared st_threads.
Arguments st_shared {K V D} s.
Arguments st_threads {K V D} s.
Arguments lookup {K V} K_eqb k l.
Arguments tstep {K V D} K_eqb kind exec i s t.
Arguments step_at {K V D} K_eqb kind exec i s.
Arguments run_schedule {K V D} K_eqb kind exec l s.
Arguments db_new {K V D}.
Arguments start {K V D} cs.
