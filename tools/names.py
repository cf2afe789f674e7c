#!/usr/bin/env python3
"""Writes rocq/theories/NameData.v: the names of the node types of the generated parsers in /repo, from `node_type_info`.

usage: names.py /repo > rocq/theories/NameData.v
"""
import re
import sys

from grammars import SOURCES


def main(repo):
    print("(** Generated by tools/names.py: the names of the node types of each language, and which are whitespace. *)")
    print("From Coq Require Import List String.")
    print("Import ListNotations.")
    for name, path in SOURCES:
        s = open(repo + "/" + path).read()
        nums = dict((n, int(v)) for n, v in re.findall(r"pub const (\w+): rt::NodeType = rt::NodeType\((\d+)\);", s))
        nums["ERROR"] = 0
        start = s[:s.index("fn node_type_info")].count("\n") + 1
        end = s[:s.index('panic!("Unknown rt::NodeType')].count("\n") + 2
        rows = re.findall(r"(\w+) => rt::NodeTypeInfo \{ name: \"(\w+)\", whitespace_like: (\w+) \}", s)
        print("\n(** %s %d-%d *)" % (path, start, end))
        print("Definition %s_names : list (nat * (string * bool)) :=" % name)
        print("  [" + ";\n   ".join('(%d, ("%s"%%string, %s))' % (nums[a], b, c) for a, b, c in rows) + "].")


main(sys.argv[1])
