(** Model of lang/rust/src/editor/{line_index,fst_subseq,file_symbols,symbol_index}.rs and indxr/src/lib.rs. *)
From Coq Require Import List Arith Bool.
From Verif Require Import Base TextModel TreeModel SearchModel.
Import ListNotations.

(** ** Line index *)

(** line_index.rs:15-25 [LineIndex::new]; the argument is the text's bytes *)
Fixpoint newline_offsets (cs : list bytes) (curr : nat) : list nat :=
  match cs with
  | [] => []
  | c :: r =>
      let curr' := curr + length c in
      if bytes_eqb c [10] then curr' :: newline_offsets r curr' else newline_offsets r curr'
  end.

Definition line_index_new (s : bytes) : list nat := 0 :: newline_offsets (chars s) 0.

(** [ordslice::Ext::upper_bound] on a sorted slice: the index of the first element greater than the key
    (external crate; modelled by its contract) *)
Fixpoint upper_bound (l : list nat) (key : nat) : nat :=
  match l with
  | [] => 0
  | x :: r => if x <=? key then S (upper_bound r key) else 0
  end.

(** line_index.rs:27-32 [translate]: line and column *)
Definition translate (index_ : list nat) (offset : nat) : res (nat * nat) :=
  line <- usub (upper_bound index_ offset) 1 ;;
  start <- index index_ line ;;
  col <- usub offset start ;;
  Ok (line, col).

(** ** The subsequence automaton *)

Section Automaton.
  Variable query : bytes.

  (** fst_subseq.rs:15-17 *)
  Definition a_start : nat := 0.
  (** fst_subseq.rs:19-21 *)
  Definition a_is_match (state : nat) : bool := state =? length query.
  (** fst_subseq.rs:23-31 *)
  Definition a_accept (state byte : nat) : res nat :=
    if length query <=? state then Ok state
    else b <- index query state ;; Ok (if byte =? b then S state else state).
  (** fst_subseq.rs:33-35 *)
  Definition a_can_match (_ : nat) : bool := true.
  (** fst_subseq.rs:37-39 *)
  Definition a_will_always_match (state : nat) : bool := state =? length query.

  (** Feeding the bytes of a key, as the fst crate does *)
  Definition a_run (state : nat) (key : bytes) : res nat := fold_res a_accept state key.
End Automaton.

(** ** Symbols of a file *)

(** symbol_index.rs:116-122 *)
Record symbol : Type := mkSymbol {
  sy_ty : nat; sy_name : bytes; sy_range : range; sy_lc : (nat * nat) * (nat * nat) }.

(** file_symbols.rs:5-22 [process_symbols], collected: the named definitions in bottom-up order.  [defs] are
    the types FnDef, StructDef, EnumDef, TypeDef, TraitDef, ModDef (each node has one type, so at most one of
    the six callbacks runs); the name is the text of the first IDENT child (rust.rs:987-989). *)
Definition process_symbols (f : file) (defs : list nat) (ident : nat) : res (list (bytes * nat)) :=
  bottom_up (f_nodes f) (fun acc n =>
    ty <- node_ty (f_nodes f) n ;;
    if existsb (Nat.eqb ty) defs then
      c <- child_of_type (f_nodes f) n ident ;;
      match c with
      | None => Ok acc
      | Some m => t <- node_text f m ;; s <- as_str t ;; Ok (acc ++ [(s, n)])
      end
    else Ok acc) root [].

Section Symbols.
  (** [str::to_lowercase] and, for queries, [chars().flat_map(char::to_lowercase)] *)
  Variable lower : bytes -> bytes.
  Variable lower_chars : bytes -> bytes.

  (** Order of strings: lexicographic on bytes *)
  Fixpoint bytes_ltb (a b : bytes) : bool :=
    match a, b with
    | _, [] => false
    | [], _ :: _ => true
    | x :: a', y :: b' => (x <? y) || ((x =? y) && bytes_ltb a' b')
    end.

  (** std [sort_by_key]: a stable sort (modelled as insertion sort) *)
  Fixpoint insert_symbol (s : symbol) (l : list symbol) : list symbol :=
    match l with
    | [] => [s]
    | x :: r => if bytes_ltb (lower (sy_name x)) (lower (sy_name s)) then x :: insert_symbol s r else s :: l
    end.

  Fixpoint sort_symbols (l : list symbol) : list symbol :=
    match l with [] => [] | s :: r => insert_symbol s (sort_symbols r) end.

  (** std [dedup_by_key]: drops elements with the key of the element kept before *)
  Fixpoint dedup_from (prev : bytes) (l : list symbol) : list symbol :=
    match l with
    | [] => []
    | s :: r => if bytes_eqb (lower (sy_name s)) prev then dedup_from prev r else s :: dedup_from (lower (sy_name s)) r
    end.

  Definition dedup_symbols (l : list symbol) : list symbol :=
    match l with [] => [] | s :: r => s :: dedup_from (lower (sy_name s)) r end.

  (** [fst::Map::from_iter(..).unwrap()]: fails unless the keys are strictly increasing *)
  Fixpoint strictly_sorted (l : list bytes) : bool :=
    match l with
    | [] => true
    | a :: r => match r with [] => true | b :: _ => bytes_ltb a b && strictly_sorted r end
    end.

  (** symbol_index.rs:86-89 *)
  Record file_symbols : Type := mkFS { fs_symbols : list symbol; fs_map : list (bytes * nat) }.

  (** symbol_index.rs:105-113, from the collected symbols on *)
  Definition index_symbols (l : list symbol) : res file_symbols :=
    let l2 := dedup_symbols (sort_symbols l) in
    let keys := map (fun s => lower (sy_name s)) l2 in
    if strictly_sorted keys then Ok (mkFS l2 (combine keys (seq 0 (length keys)))) else Panic.

  (** symbol_index.rs:92-113 [FileSymbols::new] for the parsed file *)
  Definition file_symbols_new (f : file) (defs : list nat) (ident : nat) : res file_symbols :=
    let li := line_index_new (f_text f) in
    named <- process_symbols f defs ident ;;
    syms <- flat_map_res (fun x =>
              ty <- node_ty (f_nodes f) (snd x) ;;
              r <- node_range (f_nodes f) (snd x) ;;
              a <- translate li (rstart r) ;;
              b <- translate li (rend r) ;;
              Ok [mkSymbol ty (fst x) r (a, b)]) named ;;
    index_symbols syms.

  (** [map.search(a).into_stream()]: the entries whose key the automaton accepts, in key order
      (contract of the fst crate, given that [can_match] and [will_always_match] are sound: C32) *)
  Definition search (q : bytes) (m : list (bytes * nat)) : res (list nat) :=
    l <- filter_res (fun e => st <- a_run q a_start (fst e) ;; Ok (a_is_match q st)) m ;;
    Ok (map snd l).

  (** symbol_index.rs:52-55 *)
  Record query_t : Type := mkQuery { q_query : bytes; q_all : bool }.

  (** symbol_index.rs:58-65; '#' is byte 35, never part of a longer UTF-8 character *)
  Definition query_new (q : bytes) : query_t :=
    mkQuery (lower_chars (filter (fun b => negb (b =? 35)) q)) (existsb (Nat.eqb 35) q).

  (** symbol_index.rs:67-83; [types] are STRUCT_DEF, ENUM_DEF, TRAIT_DEF, TYPE_DEF *)
  Definition query_process (types : list nat) (q : query_t) (fsym : file_symbols) : res (list symbol) :=
    idxs <- search (q_query q) (fs_map fsym) ;;
    flat_map_res (fun i => s <- index (fs_symbols fsym) i ;;
                    Ok (if q_all q || existsb (Nat.eqb (sy_ty s)) types then [s] else [])) idxs.

  (** symbol_index.rs:42-49 and indxr/src/lib.rs:46-53: visit the files (hash-map order is the order of the
      list) until there are more than [limit] (512) results. *)
  Fixpoint process_query {P} (limit : nat) (types : list nat) (files : list (P * file_symbols)) (q : query_t)
      (acc : list (P * symbol)) : res (list (P * symbol)) :=
    match files with
    | [] => Ok acc
    | (path, fsym) :: rest =>
        l <- query_process types q fsym ;;
        let acc' := acc ++ map (fun s => (path, s)) l in
        if limit <? length acc' then Ok acc' else process_query limit types rest q acc'
    end.

  (** symbol_index.rs:31-40; the two passes lock the index one after the other, so they may see different
      files *)
  Definition query_index {P} (limit : nat) (types : list nat) (files1 files2 : list (P * file_symbols)) (q : bytes)
      : res (list (P * symbol)) :=
    let q1 := query_new q in
    r <- process_query limit types files1 q1 [] ;;
    if (match r with [] => true | _ => false end) && negb (q_all q1)
    then process_query limit types files2 (mkQuery (q_query q1) true) []
    else Ok r.
End Symbols.

(** ** The file index *)

Section Indxr.
  (** Contents of files and what the mapper makes of them ([Mapper<V>], lib.rs:16). *)
  Variable content V : Type.
  Variable mapper : content -> option V.
  (** The extension filter (lib.rs:24-29), a test on the path. *)
  Variable passes : list bytes -> bool.

  (** A path is its list of components. *)
  Definition path := list bytes.
  Definition path_eqb : path -> path -> bool := list_eqb bytes_eqb.

  (** The file system as seen at one moment: regular files and directories (no symlinks, no I/O errors apart
      from those the mapper turns into [None]). *)
  Record fs_state : Type := mkFsState { fs_files : list (path * content); fs_dirs : list path }.

  Definition fs_read (s : fs_state) (p : path) : option content :=
    option_map snd (find_first (fun x => path_eqb (fst x) p) (fs_files s)).
  (** [path.is_dir()] *)
  Definition fs_is_dir (s : fs_state) (p : path) : bool := existsb (path_eqb p) (fs_dirs s).
  (** [path.exists()] *)
  Definition fs_exists (s : fs_state) (p : path) : bool :=
    fs_is_dir s p || match fs_read s p with Some _ => true | None => false end.

  (** [k.starts_with(path)], on components *)
  Fixpoint under (p k : path) : bool :=
    match p, k with
    | [], _ => true
    | a :: p', b :: k' => bytes_eqb a b && under p' k'
    | _ :: _, [] => false
    end.

  (** [WalkDir::new(path)] restricted to regular files *)
  Definition walk (s : fs_state) (p : path) : list path := filter (under p) (map fst (fs_files s)).

  (** The index: lib.rs:63 [HashMap<PathBuf, IndexedFile<V>>] as an association list, first entry counts *)
  Definition index_map := list (path * V).
  Definition im_get (m : index_map) (p : path) : option V :=
    option_map snd (find_first (fun x => path_eqb (fst x) p) m).
  Definition im_remove (m : index_map) (p : path) : index_map := filter (fun x => negb (path_eqb (fst x) p)) m.
  Definition im_insert (m : index_map) (p : path) (v : V) : index_map := (p, v) :: im_remove m p.

  (** [(self.mapper)(path)]: reads the file *)
  Definition map_file (s : fs_state) (p : path) : option V :=
    match fs_read s p with Some c => mapper c | None => None end.

  (** lib.rs:109-155 [change].  The file system is looked at several times while others may change it: once
      for [exists], once for [is_dir], once for the walk, and for each file read ([reads]). *)
  Definition change (s_exists s_dir s_walk : fs_state) (reads : path -> fs_state) (p : path) (m : index_map) : index_map :=
    let added := fs_exists s_exists p in
    match fs_is_dir s_dir p, added with
    | false, true =>
        if passes p then
          match map_file (reads p) p with
          | None => im_remove m p
          | Some v => im_insert m p v
          end
        else m
    | false, false => im_remove m p
    | true, false => filter (fun x => negb (under p (fst x))) m
    | true, true =>
        fold_left (fun m k => match map_file (reads k) k with Some v => im_insert m k v | None => m end)
          (filter passes (walk s_walk p)) m
    end.

  (** lib.rs:68-107 [watch]: the roots first, then the notified paths; a rename is two changes.  Every change
      happens in some state of the file system. *)
  Definition change_at (s : fs_state) (p : path) (m : index_map) : index_map := change s s s (fun _ => s) p m.

  Fixpoint run_changes (evs : list (fs_state * path)) (m : index_map) : index_map :=
    match evs with
    | [] => m
    | (s, p) :: r => run_changes r (change_at s p m)
    end.

  (** lib.rs:81-97: the file system events *)
  Inductive fs_event : Type := Touched (p : path) | Renamed (p1 p2 : path) | Other.

  (** The changes [watch] makes: roots, then events; each with the state(s) of the file system at that moment. *)
  Definition event_changes (e : fs_event * fs_state * fs_state) : list (fs_state * path) :=
    let '(ev, s1, s2) := e in
    match ev with
    | Touched p => [(s1, p)]
    | Renamed p1 p2 => [(s1, p1); (s2, p2)]
    | Other => []
    end.
  Definition watch (roots : list (fs_state * path)) (events : list (fs_event * fs_state * fs_state)) : index_map :=
    run_changes (roots ++ flat_map event_changes events) [].
End Indxr.
