(** Model of the remaining methods of texts (fall/text/src/text.rs, text_buf.rs): searching from the end, comparing and
    hashing. *)
From Coq Require Import List Arith Bool.
From Verif Require Import Base TextModel.
Import ListNotations.

(** std [str::ends_with] *)
Definition is_suffix (p s : bytes) : bool := is_prefix (rev p) (rev s).

(** std [str::rfind] with a string: the last place where it occurs *)
Fixpoint rfind_sub (n s : bytes) : option nat :=
  match s with
  | [] => if is_prefix n [] then Some 0 else None
  | _ :: r =>
      match rfind_sub n r with
      | Some i => Some (S i)
      | None => if is_prefix n s then Some 0 else None
      end
  end.

(** std [str::cmp]: bytes from left to right *)
Fixpoint bytes_cmp (a b : bytes) : comparison :=
  match a, b with
  | [], [] => Eq
  | [], _ :: _ => Lt
  | _ :: _, [] => Gt
  | x :: a', y :: b' => match Nat.compare x y with Eq => bytes_cmp a' b' | c => c end
  end.

(** text.rs 37-39 *)
Definition ends_with (t : text) (p : bytes) : res bool := s <- as_str t ;; Ok (is_suffix p s).

(** text.rs 49-51 (the cast to u32 is not modelled) *)
Definition rfind (t : text) (needle : bytes) : res (option nat) := s <- as_str t ;; Ok (rfind_sub needle s).

(** text.rs 84-86 *)
Definition text_chars (t : text) : res (list bytes) := s <- as_str t ;; Ok (chars s).

(** text.rs 120-124, and 126-130 with the sides exchanged *)
Definition text_str_eqb (t : text) (other : bytes) : res bool := s <- str_index (owned t) (trange t) ;; Ok (bytes_eqb s other).
Definition str_text_eqb (s : bytes) (other : text) : res bool := text_str_eqb other s.

(** text.rs 133-137 and 147-151, 140-144 *)
Definition text_cmp (t other : text) : res comparison := a <- as_str t ;; b <- as_str other ;; Ok (bytes_cmp a b).
Definition text_str_cmp (t : text) (other : bytes) : res comparison := a <- str_index (owned t) (trange t) ;; Ok (bytes_cmp a other).

(** text.rs 154-158; [hash] is what the hasher makes of the bytes of a string *)
Definition text_hash {H : Type} (hash : bytes -> H) (t : text) : res H := s <- as_str t ;; Ok (hash s).

(** text_buf.rs 9-25: buffers of strings and of texts; 36-58: comparing with strings, on either side *)
Definition buf_of_text (t : text) : res bytes := as_str t.
Definition buf_str_eqb (buf other : bytes) : res bool := text_str_eqb (as_text buf) other.
Definition str_buf_eqb (s buf : bytes) : res bool := buf_str_eqb buf s.
