"""Check that the texts in rocq/theories/ModelSource.v are those of the source tree.

usage: texts.py /path/to/rescan
Each text must be the file it names, or the file up to its tests."""
import re
import sys

src = open("rocq/theories/ModelSource.v").read()
bad = 0
for path, cut, text in re.findall(r'\(\*\* src/(\S+?)(, without its tests)? \*\)\nDefinition \w+ : string := "((?:[^"]|"")*)"\.', src):
    want = open(sys.argv[1] + "/src/" + path).read()
    if cut:
        want = want[: want.index("#[cfg(test)]\nmod tests")]
    same = text.replace('""', '"') == want
    bad += not same
    print(path, "same" if same else "DIFFERENT")
sys.exit(bad)
