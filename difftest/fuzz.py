"""Generate random inputs, print them (codepoints per line) to inputs.txt and the
port's outcome to expected.txt.  usage: fuzz.py SEED N"""
import random, sys
sys.path.insert(0, __file__.rsplit('/', 1)[0])
from port import outcome
sys.setrecursionlimit(100000)
rnd = random.Random(int(sys.argv[1])); n = int(sys.argv[2])
FR = ["#", "##", "# ", "\n", "\n\n", " ", "  ", "    ", "\t", "\t\t", "1", "1. ", "2.", "*", "**", "***", "_", "- ", "-", "+ ", "---",
      ">", "> ", ">> ", "~", "~~", "`", "``", "```", "[", "]", "(", ")", "[^", "[^a]", "[^a]: ", "](", "!", "![", "<", ">", "<details>\n",
      "<summary>", "</summary>\n", "</details>", "<summary>s</summary>\n", "|", "|\n|", "|a|b|\n", "|-|:-:|\n", "\\", "{#", "}", "{", "a", "b", "é", "木", "😀",
      "http:", "javascript:", "data:image/", "@", ":", "mailto:", "x", "&", "\"", "'", "\r", "- [ ] ", "- [x] ", "\n\n\t", " ", "　", "$", "%", "foo", "bar.", "\x0b", "<http://a.b>", " \"t\")"]
inp = open("inputs.txt", "w"); exp = open("expected.txt", "w")
for _ in range(n):
    sub = rnd.sample(FR, rnd.randint(2, 12))
    m = rnd.random()
    if m < 0.1: sub = ["<details>\n", "<details>\n<summary>s</summary>\n", "</details>", "a", "\n"]
    elif m < 0.2: sub = ["# ", "{#", "}", "a", " ", "#", "\n", "*b*"]
    elif m < 0.3: sub = ["|", "|a|", "\n", "|\n|", "|-|:-:|\n", "|a|*b*|\n", "[x](http:y)", "`c`"]
    s = "".join(rnd.choice(sub if rnd.random() < 0.8 else FR) for _ in range(rnd.randint(0, 25)))
    inp.write(" ".join(str(ord(c)) for c in s) + "\n"); exp.write(outcome(s) + "\n")
