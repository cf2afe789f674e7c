(** The Rust language, used for the concrete cases beside the theorems about Rust files.
    lang/rust/syntax/src/rust.rs 208-296 [create_lexer].  Simplifications: only ASCII letters, digits and spaces are
    recognised, there are no block comments, characters, raw strings or escapes in strings; m_lexer (not part of the
    repository) is taken to prefer the longest match and then the earlier rule.  Nothing but the concrete cases depends
    on this lexer. *)
From Coq Require Import List Arith Bool Ascii String.
From Verif Require Import Base TextModel TreeModel LexModel GrammarModel ParserModel ConvertModel GrammarData FallLang RustEditModel.
Import ListNotations.
Open Scope list_scope.

(** rust.rs 213-243 *)
Definition keywords : list (bytes * nat) :=
  [
    ([97; 115], 104); ([99; 114; 97; 116; 101], 105); ([101; 120; 116; 101; 114; 110], 106); ([102; 110], 107);
    ([108; 101; 116], 108); ([112; 117; 98], 109); ([115; 116; 114; 117; 99; 116], 110); ([117; 115; 101], 111);
    ([109; 111; 100], 112); ([105; 102], 113); ([101; 108; 115; 101], 114); ([101; 110; 117; 109], 115);
    ([105; 109; 112; 108], 116); ([115; 101; 108; 102], 117); ([115; 117; 112; 101; 114], 118);
    ([116; 121; 112; 101], 119); ([99; 111; 110; 115; 116], 120); ([115; 116; 97; 116; 105; 99], 121);
    ([102; 111; 114], 122); ([108; 111; 111; 112], 123); ([119; 104; 105; 108; 101], 124); ([109; 111; 118; 101], 125);
    ([109; 117; 116], 126); ([114; 101; 102], 127); ([116; 114; 97; 105; 116], 128); ([109; 97; 116; 99; 104], 129);
    ([114; 101; 116; 117; 114; 110], 130); ([99; 111; 110; 116; 105; 110; 117; 101], 131);
    ([98; 114; 101; 97; 107], 132); ([105; 110], 133); ([117; 110; 115; 97; 102; 101], 134);
    ([119; 104; 101; 114; 101], 135); ([116; 114; 117; 101], 187); ([102; 97; 108; 115; 101], 187); ([95], 180) ].
(** rust.rs 245-287, longer ones first *)
Definition signs : list (bytes * nat) :=
  [
    ([46; 46; 46], 163); ([45; 62], 150); ([61; 62], 151); ([61; 61], 153); ([33; 61], 154); ([62; 61], 155);
    ([60; 61], 156); ([58; 58], 159); ([46; 46], 162); ([42; 61], 167); ([47; 61], 169); ([37; 61], 171);
    ([43; 61], 173); ([45; 61], 175); ([38; 61], 177); ([124; 61], 179); ([94; 61], 184); ([40], 136); ([41], 137);
    ([123], 138); ([125], 139); ([60], 140); ([62], 141); ([91], 142); ([93], 143); ([61], 152); ([59], 157);
    ([58], 158); ([44], 160); ([46], 161); ([35], 164); ([36], 165); ([42], 166); ([47], 168); ([37], 170);
    ([43], 172); ([45], 174); ([38], 176); ([124], 178); ([33], 181); ([63], 182); ([94], 183) ].

Definition rust_word (s : bytes) : token :=
  let n := span is_word s in
  if n =? 0 then mkTok ERROR 1
  else match find_first (fun x : bytes * nat => list_eqb Nat.eqb (fst x) (firstn n s)) keywords with
       | Some (_, ty) => mkTok ty n
       | None => mkTok RS_IDENT n
       end.

Definition rust_lexer : lexer := fun s =>
  match s with
  | [] => mkTok ERROR 1
  | b :: r =>
      if is_space b then mkTok RS_WHITESPACE (span is_space s)
      else if is_prefix [47; 47] s then
        let n := span (fun c => negb (c =? 10)) s in mkTok RS_LINE_COMMENT (if n <? List.length s then S n else n)
      else if is_digit b then mkTok 188 (span is_digit s)
      else if b =? 39 then mkTok RS_LIFETIME (S (span is_word r))
      else if b =? 34 then
        let n := span (fun c => negb (c =? 34)) r in if n <? List.length r then mkTok 189 (2 + n) else mkTok ERROR 1
      else match find_first (fun x : bytes * nat => is_prefix (fst x) s) signs with
           | Some (t, ty) => mkTok ty (List.length t)
           | None => rust_word s
           end
  end.

(** rust.rs 297-571: the language *)
Definition rust_lang : language := mkLang rust_lexer rust_grammar rust_ws rust_binder.
