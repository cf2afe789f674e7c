#!/usr/bin/env python3
"""Writes rocq/theories/GrammarData.v from the `parser_json` literals of the generated parsers in /repo.

Each grammar is copied expression by expression. Next to it goes a certificate for the check of WellFormed.v; how the
certificate is found does not matter, since the check is run by Coq.

usage: grammars.py /repo > rocq/theories/GrammarData.v
"""
import json
import re
import sys

SOURCES = [
    ("fall", "lang/fall/syntax/src/fall.rs"),
    ("rust", "lang/rust/syntax/src/rust.rs"),
    ("sexp", "fall/test/src/sexp.rs"),
    ("bnf", "lang/bnf/src/bnf.rs"),
    ("json", "lang/json/src/json.rs"),
    ("arith", "fall/test/src/arith.rs"),
    ("weird", "fall/test/src/weird.rs"),
]


def load(path):
    s = open(path).read()
    m = re.search(r'parser_json = r(#+)"(.*?)"\1;', s, re.S)
    rules = json.loads(m.group(2))
    names = dict((n, int(v)) for n, v in re.findall(r"pub const (\w+): rt::NodeType = rt::NodeType\((\d+)\);", s))
    names["rt::ERROR"] = 0
    d = re.search(r"node_types: vec!\[(.*?)\]", s[m.end():], re.S).group(1)
    types = [names[x.strip()] for x in d.split(",") if x.strip()]
    ws = [names[n] for n in re.findall(r"(\w+) => rt::NodeTypeInfo \{ name: \"\w+\", whitespace_like: true \}", s)]
    return rules, types, ws, s[:m.start()].count("\n") + 1


def kind(x):
    return x if isinstance(x, str) else list(x)[0]


def val(x):
    return None if isinstance(x, str) else list(x.values())[0]


# ---- certificates

NONE, FRESH, STALE, OTHER = "nfso"


def analyze(rules):
    n = len(rules)
    k = [kind(x) for x in rules]
    v = [val(x) for x in rules]
    args = {}

    def fix(step):
        while step():
            pass

    def flow():
        changed = False
        for e in range(n):
            if k[e] == "Call":
                for i, a in v[e][1]:
                    s = args.setdefault(i, set())
                    t = args.get(v[a], set()) if k[a] == "Var" else {a}
                    if not t <= s:
                        s |= t
                        changed = True
        return changed
    fix(flow)

    def kids(e):
        K, V = k[e], v[e]
        if K in ("Pub", "PubReplace"):
            return [V["body"]]
        if K == "Or":
            return list(V)
        if K == "And":
            return list(V[0])
        if K in ("Rep", "Opt", "Not", "Cached"):
            return [V]
        if K in ("WithSkip", "Layer", "Inject"):
            return list(V)
        if K in ("Enter", "Exit"):
            return [V[1]]
        if K == "Call":
            return [V[0]]
        if K == "Var":
            return sorted(args.get(V, ()))
        if K == "Pratt":
            return V["atoms"] + [p["op"] for p in V["prefixes"]] + [p["op"] for p in V["infixes"]]
        return []

    def head(V):
        parts, c = V
        return parts[:len(parts) if c is None else c]

    def solve(start, f):
        a = [start] * n

        def step():
            changed = False
            for e in range(n):
                x = f(e, a)
                if x != a[e]:
                    a[e] = x
                    changed = True
            return changed
        fix(step)
        return a

    def nul(e, a):
        K, V = k[e], v[e]
        if K in ("Rep", "Opt", "Not", "Eof", "IsIn", "PrevIs"):
            return True
        if K in ("Token", "Any"):
            return False
        if K == "ContextualToken":
            return V[1] == ""
        if K == "And":
            return all(a[b] for b in head(V))
        if K == "WithSkip":
            return a[V[1]]
        if K == "Layer":
            return a[V[0]]
        if K == "Inject":
            return a[V[0]] and a[V[1]]
        if K == "Pratt":
            return any(a[b] for b in V["atoms"])
        return any(a[b] for b in kids(e))
    null = solve(False, nul)

    def left_kids(e):
        K, V = k[e], v[e]
        if K == "And":
            r = []
            for b in V[0]:
                r.append(b)
                if not null[b]:
                    break
            return r
        if K == "Inject":
            return [V[0]] + ([V[1]] if null[V[0]] else [])
        return kids(e)

    def nd(e, a):
        K, V = k[e], v[e]
        if K == "Var":
            return frozenset([V])
        s = frozenset().union(*[a[b] for b in kids(e)])
        if K == "Call":
            s -= frozenset(i for i, _ in V[1])
            s |= frozenset(v[b] for _, b in V[1] if k[b] == "Var")
        return s
    need = solve(frozenset(), nd)

    def lf(e, a):
        K, V = k[e], v[e]
        if K == "Var":
            return frozenset([V])
        if K == "Call":
            m = dict(V[1])
            s = set()
            for x in a[V[0]]:
                if x not in m:
                    s.add(x)
                elif k[m[x]] == "Var":
                    s.add(v[m[x]])
            return frozenset(s)
        return frozenset().union(*[a[b] for b in left_kids(e)])
    left = solve(frozenset(), lf)

    def bs(e, a):
        K, V = k[e], v[e]
        if K == "Var":
            r = 1
        elif K == "Call":
            m = dict(V[1])
            r = a[V[0]] + 1
            for x in left[V[0]]:
                if x in m and k[m[x]] != "Var":
                    r = max(r, a[V[0]] + a[m[x]] + 1)
        else:
            r = max([0] + [a[b] + 1 for b in left_kids(e)])
        if r > 10 * n:
            sys.exit("left recursion through %d" % e)
        return r
    base = solve(0, bs)

    def then(a, b):
        return (a - {NONE}) | b if NONE in a else a

    def sh(e, a):
        K, V, S = k[e], v[e], frozenset
        if K == "Pub":
            return S([FRESH])
        if K == "And":
            parts, c = V
            r, acc = S(), S([NONE])
            for j, b in enumerate(parts):
                if c is not None and j >= c:
                    r |= then(acc, S([FRESH]))
                acc = then(acc, a[b])
            return r | acc
        if K in ("Token", "ContextualToken", "Any", "Cached"):
            return S([OTHER])
        if K in ("Eof", "Not", "IsIn", "PrevIs"):
            return S([NONE])
        if K in ("Opt", "Rep"):
            return a[V] | {NONE}
        if K == "WithSkip":
            return a[V[1]] | {FRESH}
        if K == "Layer":
            return a[V[1]] | {NONE, FRESH}
        if K == "Inject":
            return then(a[V[0]], a[V[1]]) | {STALE}
        if K == "Pratt":
            s = S().union(*[a[b] for b in V["atoms"]])
            return s | ({FRESH} if V["prefixes"] else S()) | ({STALE} if V["infixes"] else S())
        return S().union(*[a[b] for b in kids(e)])
    shape = solve(frozenset(), sh)

    def sf(e, a):
        K, V = k[e], v[e]
        if K == "Inject" or (K == "Pratt" and V["infixes"]) or (K == "Pub" and V["replaceable"]):
            return False
        if K == "Not":
            return True
        if K in ("Layer", "WithSkip"):
            return a[V[1]]
        return all(a[b] for b in kids(e))
    safe = solve(True, sf)

    def tt(e, a):
        K, V = k[e], v[e]
        if K in ("Opt", "Rep"):
            return True
        if K in ("Pub", "PubReplace", "Enter", "Exit", "Call", "Cached"):
            return a[kids(e)[0]]
        if K == "Var":
            return bool(kids(e)) and all(a[b] for b in kids(e))
        if K == "Or":
            return any(a[b] for b in V)
        if K == "And":
            return all(a[b] for b in head(V))
        if K == "Layer":
            return a[V[0]]
        if K == "Inject":
            return a[V[0]] and a[V[1]]
        if K == "Pratt":
            return any(a[b] for b in V["atoms"])
        return False
    total = solve(True, tt)
    return args, [(base[e], need[e], left[e], null[e], shape[e], safe[e], total[e]) for e in range(n)]


# ---- output

def nn(x):
    return "#%d" % x


def lst(l):
    return "[" + "; ".join(l) + "]"


def bl(b):
    return "true" if b else "false"


def expr(x):
    K, V = kind(x), val(x)
    if K == "Pub":
        return "EPub %s %s %s" % (nn(V["ty"]), nn(V["body"]), bl(V["replaceable"]))
    if K == "PubReplace":
        return "EPubReplace %s %s" % (nn(V["ty"]), nn(V["body"]))
    if K == "Or":
        return "EOr " + lst(map(nn, V))
    if K == "And":
        return "EAnd %s %s" % (lst(map(nn, V[0])), "None" if V[1] is None else "(Some %s)" % nn(V[1]))
    if K == "ContextualToken":
        return "EContextual %s %s" % (nn(V[0]), lst(nn(b) for b in V[1].encode()))
    if K == "Pratt":
        return "EPratt (mkPratt %s %s %s)" % (
            lst(map(nn, V["atoms"])),
            lst("mkPrefix %s %s %s" % (nn(p["ty"]), nn(p["op"]), nn(p["priority"])) for p in V["prefixes"]),
            lst("mkInfix %s %s %s %s" % (nn(p["ty"]), nn(p["op"]), nn(p["priority"]), bl(p["has_rhs"])) for p in V["infixes"]))
    if K == "Call":
        return "ECall %s %s" % (nn(V[0]), lst("(%s, %s)" % (nn(i), nn(a)) for i, a in V[1]))
    if K == "PrevIs":
        return "EPrevIs " + lst(map(nn, V))
    if K in ("Eof", "Any"):
        return "E" + K
    if K in ("WithSkip", "Layer", "Enter", "Exit", "Inject"):
        return "E%s %s %s" % (K, nn(V[0]), nn(V[1]))
    if K in ("Token", "Rep", "Opt", "Not", "IsIn", "Var", "Cached"):
        return "E%s %s" % (K, nn(V))
    sys.exit("unknown expression " + repr(x))


def info(i):
    base, need, left, null, shape, safe, total = i
    return "mkInfo %s %s %s %s (mkShape %s) %s %s" % (
        nn(base), lst(map(nn, sorted(need))), lst(map(nn, sorted(left))), bl(null),
        " ".join(bl(x in shape) for x in (NONE, FRESH, STALE, OTHER)), bl(safe), bl(total))


def main():
    repo = sys.argv[1]
    print('''(** The grammars of the shipped languages, copied from the [parser_json] literals in /repo by tools/grammars.py,
    with certificates for the check of WellFormed.v. Do not edit. *)
From Coq Require Import List NArith.
From Verif Require Import Base LexModel GrammarModel WellFormed.
Import ListNotations.

Local Notation "# n" := (N.to_nat n%N) (at level 0, n at level 0, only parsing).
''')
    for name, path in SOURCES:
        rules, types, ws, line = load(repo + "/" + path)
        args, infos = analyze(rules)
        print("(** %s:%d [parser_json]; node types from the [ParserDefinition] below it *)" % (path, line))
        print("Definition %s_grammar : grammar := mkGrammar\n  %s\n  [%s].\n" % (
            name, lst(map(nn, types)), ";\n   ".join(expr(x) for x in rules)))
        print("(** %s, the types with [whitespace_like: true] *)" % path)
        print("Definition %s_ws (ty : nat) : bool := memb ty %s.\n" % (name, lst(map(nn, ws))))
        top = max(args) if args else -1
        print("Definition %s_cert : cert := mkCert\n  [%s]\n  %s.\n" % (
            name, ";\n   ".join(info(i) for i in infos), lst(lst(map(nn, sorted(args.get(i, ())))) for i in range(top + 1))))


if __name__ == "__main__":
    main()
