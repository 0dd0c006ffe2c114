#!/usr/bin/env python3
"""Functions of the source which are cited by a model file or by an anchor, and those which are not."""
import ast
import glob
import os
import re

SRC = "/repo/src/py_eddy_tracker"


def comments(text):
    """Text of the comments of a Coq file."""
    out, depth, i, start = [], 0, 0, 0
    while i < len(text) - 1:
        two = text[i:i + 2]
        if two == "(*":
            if depth == 0:
                start = i
            depth += 1
            i += 2
        elif two == "*)" and depth:
            depth -= 1
            i += 2
            if depth == 0:
                out.append(text[start:i])
        else:
            i += 1
    return "\n".join(out)


def functions(path):
    tree = ast.parse(open(path).read())
    for node in ast.walk(tree):
        if isinstance(node, ast.ClassDef):
            for sub in node.body:
                if isinstance(sub, ast.FunctionDef):
                    yield node.name, sub.name, sub.lineno, sub.end_lineno
    for node in tree.body:
        if isinstance(node, ast.FunctionDef):
            yield None, node.name, node.lineno, node.end_lineno


def cited(theories, anchors):
    """For each file of the source, words found in comments which cite this file, and line ranges."""
    words = {}
    for v in sorted(glob.glob(os.path.join(theories, "*.v"))):
        c = comments(open(v).read())
        ws = set(re.findall(r"[A-Za-z_][A-Za-z_0-9]*", c))
        words[v] = (c, ws)
    return words


def coverage(theories, anchors):
    words = cited(theories, anchors)
    allanch = "\n".join(anchors)
    res = []
    for path in sorted(glob.glob(SRC + "/**/*.py", recursive=True)):
        rel = path.split("/repo/src/py_eddy_tracker/")[1]
        base = os.path.basename(path)
        yes, no = [], []
        for cls, name, a, b in functions(path):
            label = f"{cls}.{name}" if cls else name
            hit = re.search(rf"{re.escape(rel)}: [^\n]*\b{name}\b", allanch) is not None
            if not hit:
                for c, ws in words.values():
                    if base in c and name in ws:
                        hit = True
                        break
            (yes if hit else no).append(f"`{label}` ({a}-{b})")
        if yes or no:
            res.append((rel, yes, no))
    return res


if __name__ == "__main__":
    import sys
    here = os.path.dirname(os.path.abspath(__file__))
    sys.path.insert(0, here)
    from props import P
    n = m = 0
    for rel, yes, no in coverage(os.path.join(os.path.dirname(here), "rocq", "theories"), [a for p in P for a in p["anchors"]]):
        n += len(yes)
        m += len(no)
        print(rel, "\n  yes", len(yes), "\n  no ", ", ".join(no))
    print(n, m)
