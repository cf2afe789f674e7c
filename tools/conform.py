#!/usr/bin/env python3
"""Writes a Coq file that runs the model on the inputs of the tests of the repository's parsers and compares the trees with the
recorded ones.

usage: conform.py /repo LANGUAGE... > rocq/theories/Conform.v
"""
import os
import re
import sys

def literal(s, i):
    """The string literal at s[i:] and the place after it."""
    m = re.match(r'\s*&?(?:ast\()?\s*', s[i:])
    i += m.end()
    m = re.match(r'r(#*)"', s[i:])
    if m:
        j = s.index('"' + m.group(1), i + m.end())
        return s[i + m.end():j], j + 1 + len(m.group(1))
    assert s[i] == '"', s[i:i + 40]
    m = re.match(r'"((?:[^"\\]|\\.)*)"', s[i:], re.S)
    t = re.sub(r'\\\n\s*', '', m.group(1))
    t = t.replace(r'\n', '\n').replace(r'\"', '"').replace(r'\\', '\\')
    return t, i + m.end()


def calls(path, fn, ws, lang=False):
    """The pairs of literals in calls of fn."""
    s = open(path, encoding="utf-8").read()
    s = s[s.index("#[test]"):]
    out = []
    for m in re.finditer(fn + r'\(', s):
        i = m.end()
        if s[:m.start()].endswith("fn "):
            continue
        if lang:
            i = s.index(",", i) + 1
        a, i = literal(s, i)
        m = re.match(r'\s*\)?\s*,', s[i:])
        b, i = literal(s, i + m.end())
        out.append((ws, a, b))
    return out


def inline(path):
    """The sections of a file of recorded trees."""
    out = []
    for part in open(path, encoding="utf-8").read().split("-" * 40)[:-1]:
        k = re.search(r"\n\n(FILE|FALL_FILE|GRAMMAR)\n", part).start()
        out.append((False, part[:k].strip(), part[k:]))
    return out


def directory(path):
    out = []
    for n in sorted(os.listdir(path)):
        if n.endswith(".rs"):
            out.append((False, open(path + "/" + n).read(), open(path + "/" + n[:-3] + ".txt").read()))
    return out


def tests(repo, lang):
    r = repo + "/"
    if lang == "sexp":
        return calls(r + "fall/test/tests/sexp.rs", "match_ast", True)
    if lang == "arith":
        return calls(r + "fall/test/tests/arith.rs", "match_ast", False)
    if lang == "weird":
        return calls(r + "fall/test/tests/weird.rs", "match_ast", True)
    if lang == "json":
        return calls(r + "lang/json/tests/test.rs", "check_syntax", False, True)
    if lang == "bnf":
        return inline(r + "lang/bnf/tests/inline.txt")
    if lang == "fall":
        return inline(r + "lang/fall/tests/inline.txt")
    if lang == "rust":
        p = r + "lang/rust/syntax/tests/"
        return (inline(p + "inline.txt") + calls(p + "test.rs", "check_syntax", False, True) +
                calls(p + "test.rs", "check_syntax_ws", True, True) + directory(p + "data"))


HEAD = """(** The model parses the inputs of the tests of the repository's parsers to the recorded trees.

    Written by tools/conform.py, which reads fall/test/tests, lang/json/tests, lang/bnf/tests, lang/fall/tests and lang/rust/syntax/tests
    and takes the languages it is asked for. These are checks of the model, not claims about all inputs.  Each input is lexed with the regular expressions of its grammar (ASCII tables), parsed, and its tree is
    written out and compared as check_syntax and check_syntax_ws (test_util.rs 48-58) do.  The trees were recorded when [Debug] of a string still
    escaped single quotes. *)
From Coq Require Import List Arith Bool String.
From Verif Require Import Base TextModel LexModel GrammarModel GrammarData ParserModel ConvertModel DumpModel NameModel NameData HarnessModel PropsHarness
  RegexModel RegexSpec LexData FallLang PropsRegex PropsRelex RustEditModel.
Import ListNotations.
Open Scope list_scope.
Open Scope string_scope.

Definition old_quoted (s : bytes) : bytes := ([34] ++ flat_map (fun b => if (b =? 39)%nat then [92; 39] else escaped b) s ++ [34])%list.

Definition conforms (L : language) (names : list (nat * (string * bool))) (x : bool * string * string) : bool :=
  let '(ws, input, tree) := x in
  match (if ws then check_syntax_ws else check_syntax) ascii_space (info_of names) old_quoted L 1000 (FallLang.text_of input) (FallLang.text_of tree) with
  | Ok _ => true
  | _ => false
  end.
"""


def main():
    repo = sys.argv[1]
    print(HEAD)
    for lang in sys.argv[2:]:
        ts = tests(repo, lang)
        for _, a, b in ts:
            assert all(ord(c) < 128 for c in a + b), a
        print("Definition %s_tests : list (bool * string * string) :=" % lang)
        q = lambda s: '"' + s.replace('"', '""') + '"'
        print("  [" + ";\n   ".join("(%s, %s,\n    %s)" % ("true" if w else "false", q(a), q(b)) for w, a, b in ts) + "].")
        binder = "rust_binder" if lang == "rust" else "(fun _ _ _ => 0)"
        print("Example %s_conforms : (List.length %s_tests = %d /\\ forallb (conforms (shipped_lang ascii_U one_char %s_rules %s_grammar %s_ws %s) %s_names) %s_tests = true)%%nat."
              % (lang, lang, len(ts), lang, lang, lang, binder, lang, lang))
        print("Proof. vm_compute. auto. Qed.\n")


main()
