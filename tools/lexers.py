#!/usr/bin/env python3
"""Writes rocq/theories/LexData.v: the lexical rules of the generated parsers in /repo, with their regular expressions
translated to the syntax of RegexModel.v.

usage: python3 -B lexers.py /repo > rocq/theories/LexData.v
"""
import re
import sys

from grammars import SOURCES

CLASSES = {"s": "Space", "w": "Word", "d": "Digit"}
PROPS = {"XID_Start": "XidStart", "XID_Continue": "XidContinue"}
FUNCTIONS = {"parse_raw_string": "parse_raw_string", "parse_block_comment": "parse_block_comment"}


class Regex:
    """A recursive descent parser for the regular expressions of the lexical rules."""

    def __init__(self, s):
        self.s, self.i = s, 0

    def peek(self):
        return self.s[self.i] if self.i < len(self.s) else None

    def take(self):
        c = self.s[self.i]
        self.i += 1
        assert ord(c) < 128
        return c

    def whole(self):
        r = self.alt()
        assert self.i == len(self.s), self.s
        return r

    def alt(self):
        r = self.seq()
        if self.peek() == "|":
            self.take()
            return "(Alt %s %s)" % (r, self.alt())
        return r

    def seq(self):
        items = []
        while self.peek() not in (None, "|", ")"):
            items.append(self.repeat())
        assert items, self.s
        r = items.pop()
        while items:
            r = "(Seq %s %s)" % (items.pop(), r)
        return r

    def repeat(self):
        r = self.atom()
        if self.peek() in ("*", "+", "?"):
            r = "(%s %s)" % ({"*": "Star", "+": "Plus", "?": "Opt"}[self.take()], r)
            assert self.peek() not in ("*", "+", "?")
        return r

    def atom(self):
        c = self.take()
        if c == "(":
            r = self.alt()
            assert self.take() == ")"
            return r
        if c == ".":
            return "(Chr (Not [10]))"
        if c == "[":
            assert self.take() == "^"
            cs = []
            while self.peek() != "]":
                c = self.take()
                if c == "\\":
                    c = self.take()
                    assert not c.isalnum()
                else:
                    assert c not in "-[&~"
                cs.append(c)
            self.take()
            return "(Chr (Not [%s]))" % "; ".join(str(ord(c)) for c in cs)
        if c == "\\":
            c = self.take()
            if c in CLASSES:
                return "(Chr (Cls %s))" % CLASSES[c]
            if c == "p":
                m = re.match(r"\{(\w+)\}", self.s[self.i:])
                self.i += m.end()
                return "(Chr (Cls %s))" % PROPS[m.group(1)]
            if c == "n":
                return "(Chr (Lit 10))"
            assert not c.isalnum()
            return "(Chr (Lit %d))" % ord(c)
        assert c not in "{}]^$*+?|", self.s
        return "(Chr (Lit %d))" % ord(c)


def unescape(s):
    """A Rust string literal without its quotes."""
    out, i = "", 0
    while i < len(s):
        if s[i] == "\\":
            i += 1
            out += {"n": "\n", "t": "\t", "r": "\r", "\\": "\\", "'": "'", '"': '"'}[s[i]]
        else:
            out += s[i]
        i += 1
    return out


def main(repo):
    print("(** Generated by tools/lexers.py: the lexical rules of each language. *)")
    print("From Coq Require Import List.")
    print("From Verif Require Import Base TextModel ScanModel RegexModel.")
    print("Import ListNotations.")
    for name, path in SOURCES:
        s = open(repo + "/" + path).read()
        nums = dict((n, int(v)) for n, v in re.findall(r"pub const (\w+): rt::NodeType = rt::NodeType\((\d+)\);", s))
        rows = []
        for m in re.finditer(r'rt::LexRule::new\((\w+), "((?:[^"\\]|\\.)*)", (None|Some\((\w+)\))\)', s):
            ty, lit, fn = nums[m.group(1)], m.group(2), m.group(4)
            rows.append((s[:m.start()].count("\n") + 1, "mkRule %d %s %s" % (
                ty, Regex(unescape(lit)).whole(), "(Some %s)" % FUNCTIONS[fn] if fn else "None"), m.group(1)))
        assert len(rows) == s.count("LexRule::new")
        print("\n(** %s %d-%d *)" % (path, rows[0][0], rows[-1][0]))
        print("Definition %s_rules : list lex_rule :=" % name)
        print("  [ " + ";\n    ".join("%s" % r for _, r, _ in rows) + " ].")


if __name__ == "__main__":
    main(sys.argv[1])
