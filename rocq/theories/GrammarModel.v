(** Model of the grammar representation of fall/parse/src/lib.rs and of parser events. *)
From Coq Require Import List Arith Bool.
From Verif Require Import Base LexModel.
Import ListNotations.

(** fall/parse/src/lib.rs:170-175 *)
Record prefix : Type := mkPrefix { px_ty : nat; px_op : nat; px_prio : nat }.

(** fall/parse/src/lib.rs:177-183 *)
Record infix : Type := mkInfix { ix_ty : nat; ix_op : nat; ix_prio : nat; ix_rhs : bool }.

(** fall/parse/src/lib.rs:153-158 *)
Record pratt_table : Type := mkPratt { pt_atoms : list nat; pt_prefixes : list prefix; pt_infixes : list infix }.

(** fall/parse/src/lib.rs:160-167 [PrattTable::infixes] *)
Definition infixes (t : pratt_table) (min_prior : nat) : list infix :=
  filter (fun ix => min_prior <=? ix_prio ix) (pt_infixes t).

(** fall/parse/src/lib.rs:121-151 [Expr]; [ExprRef], [NodeTypeRef], [Context], [Arg] (106-119) are indexes. *)
Inductive expr : Type :=
| EPub (ty body : nat) (replaceable : bool)
| EPubReplace (ty body : nat)
| EOr (parts : list nat)
| EAnd (parts : list nat) (commit : option nat)
| EToken (ty : nat)
| EContextual (ty : nat) (text : bytes)
| ERep (body : nat)
| EWithSkip (first body : nat)
| EOpt (body : nat)
| ENot (body : nat)
| EEof
| EAny
| ELayer (l e : nat)
| EPratt (t : pratt_table)
| EEnter (ctx e : nat)
| EExit (ctx e : nat)
| EIsIn (ctx : nat)
| ECall (body : nat) (args : list (nat * nat))
| EVar (i : nat)
| EPrevIs (tys : list nat)
| EInject (pre body : nat)
| ECached (body : nat).

(** fall/parse/src/syn_engine/mod.rs:7-11 [Grammar]; [start_rule] is 0 (lib.rs:250) *)
Record grammar : Type := mkGrammar { g_types : list nat; g_rules : list expr }.

(** fall/parse/src/syn_engine/mod.rs:32-38 [Event]; [n_raw_tokens] (u16) and [n_events] (u32) unbounded *)
Inductive event : Type :=
| EvStart (ty : nat) (fp : option nat)
| EvToken (ty n : nat)
| EvEnd
| EvCached (key n : nat).
