#!/usr/bin/env python3
"""Writes a Coq file that runs the model of the generator on the grammar sources of /repo and compares the result with
the generated parsers next to them.

usage: shipped.py /repo NAME... > rocq/theories/Shipped.v
"""
import re
import sys

SOURCES = {
    "fall": "lang/fall/syntax/src/fall",
    "sexp": "fall/test/src/sexp",
    "bnf": "lang/bnf/src/bnf",
    "json": "lang/json/src/json",
    "arith": "fall/test/src/arith",
    "weird": "fall/test/src/weird",
}
FUEL = {"fall": "100 * 100 * 10"}

HEAD = """(** The parsers in the repository are what the model of the generator makes of the grammars in the repository.

    Written by tools/shipped.py from %s: the text of each grammar, and of each generated parser the
    constants, lexer rules, verbatim code and accessors.  The rule tables are in GrammarData.v. *)
From Coq Require Import List Arith Bool String.
From Verif Require Import Base TextModel TreeModel TreeSpec FileEditSpec LexModel GrammarModel ParserModel ConvertModel GrammarData DbModel AnalysisModel
  AnalysisSpec RefModel CodegenModel FallLang FallCheck ShipCheck.
Import ListNotations.
Open Scope string_scope.
Notation t := FallLang.text_of.
"""


def coq(s):
    return '"' + s.replace('"', '""') + '"'


def b(s):
    return "(t " + coq(s) + ")"


def lst(xs):
    return "[" + "; ".join(xs) + "]"


def opt(x):
    return "None" if x is None else "(Some %s)" % x


def unescape(s):
    return re.sub(r'\\(.)', lambda m: {"n": "\n", "t": "\t", "r": "\r"}.get(m.group(1), m.group(1)), s)


def method(name, ret, body):
    m = re.match(r"rt::child_of_type_exn\(self\.node\(\), (\w+)\)\.text\(\)$", body)
    if m and ret == "rt::Text<'f>":
        return "mkMethod %s (AText false %s)" % (b(name), b(m.group(1)))
    m = re.match(r"rt::child_of_type\(self\.node\(\), (\w+)\)\.map\(\|n\| n\.text\(\)\)$", body)
    if m and ret == "Option<rt::Text<'f>>":
        return "mkMethod %s (AText true %s)" % (b(name), b(m.group(1)))
    m = re.match(r"self\.node\(\)\.children\(\)\.find\(\|n\| n\.ty\(\) == (\w+)\)(\.unwrap\(\))?$", body)
    if m and ret == ("rt::Node<'f>" if m.group(2) else "Option<rt::Node<'f>>"):
        return "mkMethod %s (AToken %s %s)" % (b(name), "false" if m.group(2) else "true", b(m.group(1)))
    m = re.match(r"rt::AstChildren::new\(self\.node\(\)\.children\(\)\)(.*)$", body)
    for suffix, arity, pattern in [
        (".next().unwrap()", "Single", r"(\w+)<'f>$"),
        (".next()", "Optional", r"Option<(\w+)<'f>>$"),
        ("", "Many", r"rt::AstChildren<'f, (\w+)<'f>>$"),
    ]:
        if m and m.group(1) == suffix:
            return "mkMethod %s (AChild %s %s)" % (b(name), arity, b(re.match(pattern, ret).group(1)))
    raise ValueError((name, ret, body))


def methods(s, start):
    return ["(%s)" % method(*m) for m in re.findall(r"^    " + start + r"fn (\w+)\(&self\) -> (.*?) \{\n\s*(.*)\n    \}$", s, re.M)]


def accessors(s):
    nodes, classes, traits = [], [], []
    for m in re.finditer(r"^pub struct (\w+)<'f> \{ node: rt::Node<'f> \}", s, re.M):
        name = m.group(1)
        ty = re.search(r"impl<'f> rt::AstNode<'f> for %s<'f> \{.*?node\.ty\(\) == (\w+)" % name, s, re.S).group(1)
        body = re.search(r"^impl<'f> %s<'f> \{\n(.*?)^\}" % name, s, re.S | re.M).group(1)
        nodes.append("mkCtxNode %s %s %s" % (b(name), b(ty), lst(methods(body, "pub "))))
    for m in re.finditer(r"^pub enum (\w+)<'f> \{\n(.*?)^\}", s, re.S | re.M):
        vs = re.findall(r"^\s+(\w+)\(\1<'f>\),$", m.group(2), re.M)
        classes.append("mkCtxClass %s %s" % (b(m.group(1)), lst("([], %s)" % b(v) for v in vs)))
    for m in re.finditer(r"^pub trait (\w+)<'f>: rt::AstNode<'f> \{\n(.*?)^\}", s, re.S | re.M):
        impls = re.findall(r"^impl<'f> %s<'f> for (\w+)<'f> \{\}" % m.group(1), s, re.M)
        traits.append("mkCtxTrait %s %s %s" % (b(m.group(1)), lst(methods(m.group(2), "")), lst(map(b, impls))))
    return "mkCtxAst\n    %s\n    %s\n    %s" % tuple("[" + ";\n     ".join(x) + "]" for x in (nodes, classes, traits))


def parser(s):
    consts = re.findall(r"^pub const (\w+): rt::NodeType", s, re.M)
    skip = dict(re.findall(r"(\w+) => rt::NodeTypeInfo \{ name: \"\1\", whitespace_like: (true|false) \}", s))
    types = lst("(%s, %s)" % (b(c), skip[c]) for c in consts)
    rules = re.findall(r'rt::LexRule::new\((\w+), "((?:[^"\\]|\\.)*)", (?:None|Some\((\w+)\))\)', s)
    lex = lst("mkCtxLex %s %s %s" % (b(n), b(unescape(r)), opt(b(f) if f else None)) for n, r, f in rules)
    tail = s[s.index("    &*LANG\n}\n") + len("    &*LANG\n}\n"):]
    mark = "#[allow(unused)]\nuse self::rt::AstNode;\n"
    verbatim, has_ast, ast = tail.partition(mark)
    verbatim = verbatim.strip()
    return "mkParserFile %s\n  %s\n  %s\n  %s" % (
        types, lex, opt(b(verbatim) if verbatim else None), opt("(" + accessors(ast) + ")" if has_ast else None))


def main():
    repo, names = sys.argv[1], sys.argv[2:]
    out = [HEAD % ", ".join(SOURCES[n] + ".{fall,rs}" for n in names)]
    for n in names:
        src = open("%s/%s.fall" % (repo, SOURCES[n])).read()
        gen = open("%s/%s.rs" % (repo, SOURCES[n])).read()
        out.append("""
(** ** %(n)s *)
Definition %(n)s_source : string := %(src)s.
Definition %(n)s_rest : parser_file := %(rest)s.
Example %(n)s_shipped : ships %(n)s_source %(n)s_grammar %(n)s_rest.
Proof. apply (ships_check (%(fuel)s)). vm_compute. reflexivity. Qed.
Print Assumptions %(n)s_shipped.
""" % dict(n=n, src=coq(src), fuel=FUEL.get(n, "5000"), rest=parser(gen)))
    sys.stdout.write("".join(out))


if __name__ == "__main__":
    main()
