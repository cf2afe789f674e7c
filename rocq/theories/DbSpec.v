(** What the analysis database should do, said without threads, caches or locks. *)
From Coq Require Import List Arith.
From Verif Require Import Base DbModel.
Import ListNotations.

Section DbSpec.
Context {K V D : Type}.
Variable exec : K -> prog K V D.

(** The outcome of a query body evaluated on its own, every subquery being evaluated afresh:
    a result with the diagnostics of this body, or a panic. *)
Inductive outcome : prog K V D -> option (V * list D) -> Prop :=
| oc_ret v ds : outcome (Ret v ds) (Some (v, ds))
| oc_fail : outcome Fail None
| oc_ask k c v ds o :
    outcome (exec k) (Some (v, ds)) -> outcome (c v) o -> outcome (Ask k c) o
| oc_ask_fail k c : outcome (exec k) None -> outcome (Ask k c) None.

(** Key [k] has result [v] and diagnostics [ds]. *)
Definition evaluates (k : K) (v : V) (ds : list D) : Prop := outcome (exec k) (Some (v, ds)).

(** [ds] lists the diagnostics of the queries [ks], each query's diagnostics once and together. *)
Definition diagnostics_of (ks : list K) (ds : list D) : Prop :=
  exists dss, Forall2 (fun k d => exists v, evaluates k v d) ks dss /\ ds = concat dss.

(** Evaluating [p] asks for [k], directly or through other queries. *)
Inductive needs : prog K V D -> K -> Prop :=
| nd_here k c : needs (Ask k c) k
| nd_sub k c k' : needs (exec k) k' -> needs (Ask k c) k'
| nd_next k c v ds k' : evaluates k v ds -> needs (c v) k' -> needs (Ask k c) k'.

(** Client [c] can ask for [k]; what it asks may depend on the answers, which are fixed, and on the
    diagnostics it sees, which are not. *)
Inductive asks : client K V D -> K -> Prop :=
| as_here k c : asks (CAsk k c) k
| as_next k c v ds k' : evaluates k v ds -> asks (c v) k' -> asks (CAsk k c) k'
| as_collect c ds k : asks (c ds) k -> asks (CCollect c) k.

(** [k] is a key that the clients [cs] ask for, directly or through other queries. *)
Definition wanted (cs : list (client K V D)) (k : K) : Prop :=
  exists c k0, In c cs /\ asks c k0 /\ (k = k0 \/ needs (exec k0) k).

(** A client that started as [c0] and has observed [log] (newest first) goes on as [c]. *)
Inductive follows (c0 : client K V D) : list (event K V D) -> client K V D -> Prop :=
| fo_start : follows c0 [] c0
| fo_answer k v log c : follows c0 log (CAsk k c) -> follows c0 (EAnswer k v :: log) (c v)
| fo_snapshot ds log c : follows c0 log (CCollect c) -> follows c0 (ESnapshot ds :: log) (c ds).

(** The thread has nothing left to do. *)
Definition finished (t : thread K V D) : Prop := t_ctl t = Client CRet \/ t_ctl t = Dead.

End DbSpec.
