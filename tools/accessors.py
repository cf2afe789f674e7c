#!/usr/bin/env python3
"""Writes rocq/theories/AccessorData.v: the AST types and accessors of the generated parsers in /repo.

usage: accessors.py /repo > rocq/theories/AccessorData.v
"""
import sys

from shipped import accessors

SOURCES = [
    ("fall", "lang/fall/syntax/src/fall.rs"),
    ("rust", "lang/rust/syntax/src/rust.rs"),
    ("bnf", "lang/bnf/src/bnf.rs"),
]
MARK = "#[allow(unused)]\nuse self::rt::AstNode;\n"


def main(repo):
    print("(** Generated by tools/accessors.py: the AST types of each language and the bodies of their methods. *)")
    print("From Coq Require Import List String.")
    print("From Verif Require Import Base TextModel AnalysisModel CodegenModel FallLang.")
    print("Import ListNotations.")
    print("Open Scope string_scope.")
    print("Local Notation t := FallLang.text_of.")
    for name, path in SOURCES:
        s = open(repo + "/" + path).read()
        at = s.index(MARK) + len(MARK)
        print("\n(** %s %d-%d *)" % (path, s[:at].count("\n") + 1, s.count("\n")))
        print("Definition %s_ast : ctx_ast := %s." % (name, accessors(s[at:])))


main(sys.argv[1])
