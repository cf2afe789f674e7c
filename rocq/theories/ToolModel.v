(** Model of the parser generator as a program: which files it reads and writes, and in which order (fall/gen/src/lib.rs,
    fall/gen/src/bin/gen.rs, code/fall/native/src/lib.rs [RenderTask]). *)
From Coq Require Import List Arith Bool.
From Verif Require Import Base.
Import ListNotations.
Open Scope list_scope.

(** A path of a file: its directory and its name. The name is neither empty nor made of dots alone. *)
Definition path := (bytes * bytes)%type.
Definition path_eqb (p q : path) : bool := bytes_eqb (fst p) (fst q) && bytes_eqb (snd p) (snd q).

(** [Path::file_stem]: the name up to its last dot, unless that is its first byte *)
Fixpoint last_dot (s : bytes) : option nat :=
  match s with
  | [] => None
  | b :: r => match last_dot r with Some i => Some (S i) | None => if b =? 46 then Some 0 else None end
  end.
Definition file_stem (name : bytes) : bytes := match last_dot name with Some (S i) => firstn (S i) name | _ => name end.
(** [Path::with_extension] *)
Definition with_extension (p : path) (e : bytes) : path := (fst p, file_stem (snd p) ++ [46] ++ e).

(** The files there are, with their contents *)
Definition fs := path -> option bytes.
Definition put (s : fs) (p : path) (t : bytes) : fs := fun q => if path_eqb p q then Some t else s q.

(** What the program does, step by step: it ends, with [Result::Ok] or [Result::Err] or in a panic, or it reads a file, or it writes
    one ([fs::write]: the file is emptied and then filled). *)
Inductive outcome := Done (text : bytes) | Failed.
Inductive prog :=
| Ret (r : res outcome)
| Read (p : path) (k : option bytes -> prog)
| Write (p : path) (t : bytes) (k : prog).

(** Running it to the end *)
Fixpoint run (c : prog) (s : fs) : fs * res outcome :=
  match c with
  | Ret r => (s, r)
  | Read p k => run (k (s p)) s
  | Write p t k => run k (put s p t)
  end.
(** One step *)
Definition step (c : prog) (s : fs) : prog * fs :=
  match c with
  | Ret r => (Ret r, s)
  | Read p k => (k (s p), s)
  | Write p t k => (k, put s p t)
  end.
(** The files it writes, in order *)
Fixpoint writes (c : prog) (s : fs) : list path :=
  match c with
  | Ret _ => []
  | Read p k => writes (k (s p)) s
  | Write p t k => p :: writes k (put s p t)
  end.

Definition s_rs : bytes := [114; 115].
Definition s_txt : bytes := [116; 120; 116].
Definition s_src : bytes := [47; 115; 114; 99].
Definition s_syntax_rs : bytes := [115; 121; 110; 116; 97; 120; 46; 114; 115].
Definition s_main_rs : bytes := [109; 97; 105; 110; 46; 114; 115].
Definition s_cargo_toml : bytes := [67; 97; 114; 103; 111; 46; 116; 111; 109; 108].
Definition s_error : bytes := [101; 114; 114; 111; 114; 58; 10].

Section Tool.
  (** [analyse(text).analyse(generate)]: the text of the parser, or a message *)
  Variable generate : bytes -> bytes + bytes.
  (** lib.rs 143-151: the tests of the grammar, joined (HarnessModel.v) *)
  Variable tests_of : bytes -> bytes.
  (** [cargo build] succeeds on this Cargo.toml, main.rs and syntax.rs; [cargo run] on them with this input: what it prints, or
      [None] if it does not end with success.  Cargo is taken to look at the contents of the files only. *)
  Variable cargo_build : option bytes -> option bytes -> option bytes -> bool.
  Variable cargo_run : option bytes -> option bytes -> option bytes -> bytes -> option bytes.
  (** [fs::read_to_string] fails if the contents are not UTF-8 *)
  Variable is_utf8 : bytes -> bool.
  (** lib.rs 91-102 and 104-121 *)
  Variables toml_text main_text : bytes.
  (** lib.rs 175: the directory fall-tests in the directory for temporary files *)
  Variable base : bytes.

  Definition syntax_path : path := (base ++ s_src, s_syntax_rs).
  Definition main_path : path := (base ++ s_src, s_main_rs).
  Definition toml_path : path := (base, s_cargo_toml).

  (** lib.rs 185-193; [path.exists()] and reading are one step.  A file that is there but not UTF-8 is an error. *)
  Definition put_text_if_changed (p : path) (text : bytes) (k : prog) : prog :=
    Read p (fun old =>
      match old with
      | Some o => if is_utf8 o then (if bytes_eqb o text then k else Write p text k) else Ret (Ok Failed)
      | None => Write p text k
      end).

  Definition crate (k : option bytes -> option bytes -> option bytes -> prog) : prog :=
    Read toml_path (fun t => Read main_path (fun m => Read syntax_path (fun y => k t m y))).

  (** lib.rs 79-171.  Directories can be made and processes started.  The output of the processes that were started without pipes is
      empty, so that a failing build gives just two line breaks. *)
  Definition render_all (grammar : bytes) (test : option bytes) : prog :=
    match generate grammar with
    | inr e => Ret (Ok (Done (s_error ++ e)))
    | inl parser =>
        put_text_if_changed syntax_path parser
          (put_text_if_changed toml_path toml_text
            (put_text_if_changed main_path main_text
              (crate (fun t m y =>
                if cargo_build t m y then
                  crate (fun t m y =>
                    match cargo_run t m y (match test with Some x => x | None => tests_of grammar end) with
                    | Some o => Ret (Ok (Done o))
                    | None => Ret Panic
                    end)
                else Ret (Ok (Done [10; 10]))))))
    end.

  (** lib.rs 33-38 *)
  Definition read_file (p : path) (k : bytes -> prog) : prog :=
    Read p (fun o => match o with Some t => if is_utf8 t then k t else Ret (Ok Failed) | None => Ret (Ok Failed) end).

  (** What follows [?] on a result *)
  Fixpoint then_ok (c : prog) (k : bytes -> prog) : prog :=
    match c with
    | Ret (Ok (Done t)) => k t
    | Ret r => Ret r
    | Read p f => Read p (fun o => then_ok (f o) k)
    | Write p t c => Write p t (then_ok c k)
    end.

  (** lib.rs 28-31 and 40-56; bin/gen.rs 15-29 chooses the task *)
  Inductive task := Generate (grammar : path) | Examples (grammar : path).
  Definition process (t : task) : prog :=
    match t with
    | Generate g =>
        read_file g (fun input =>
          match generate input with
          | inl result => Write (with_extension g s_rs) result (Ret (Ok (Done [])))
          | inr _ => Ret (Ok Failed)
          end)
    | Examples g =>
        read_file g (fun input => then_ok (render_all input None) (fun result => Write (with_extension g s_txt) result (Ret (Ok (Done [])))))
    end.
End Tool.

(** ** Several at once *)

(** Processes that share the files: [order] says whose turn it is. *)
Fixpoint play (order : list nat) (cs : list prog) (s : fs) : list prog * fs :=
  match order with
  | [] => (cs, s)
  | i :: order =>
      match nth_error cs i with
      | Some c => let (c', s') := step c s in play order (set_nth i c' cs) s'
      | None => play order cs s
      end
  end.

(** code/fall/native/src/lib.rs 64-78: the tasks of the editor run on threads and hold a mutex while they render. A panic poisons it, and
    [lock().unwrap()] panics from then on. *)
Inductive lock := Free | Held (i : nat) | Poisoned.
Inductive thread := Waiting (c : prog) | Running (c : prog) | Finished (r : res outcome).
Inductive turn : lock * list thread * fs -> lock * list thread * fs -> Prop :=
| turn_lock : forall ts s i c, nth_error ts i = Some (Waiting c) -> turn (Free, ts, s) (Held i, set_nth i (Running c) ts, s)
| turn_poisoned : forall ts s i c, nth_error ts i = Some (Waiting c) -> turn (Poisoned, ts, s) (Poisoned, set_nth i (Finished Panic) ts, s)
| turn_step : forall l ts s i c c' s', nth_error ts i = Some (Running c) -> (forall r, c <> Ret r) -> step c s = (c', s') -> turn (l, ts, s) (l, set_nth i (Running c') ts, s')
| turn_end : forall l ts s i r, nth_error ts i = Some (Running (Ret r)) ->
    turn (l, ts, s) (match r with Panic => Poisoned | _ => Free end, set_nth i (Finished r) ts, s).
