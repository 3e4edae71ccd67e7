"""Line-by-line Python transcription of /repo/gfm/src (byte-indexed, like the
Rust code), used only to cross-check the Rocq model by differential fuzzing.
Not part of any proof."""
import sys

WS = set([9,10,11,12,13,32,133,160,5760,8232,8233,8239,8287,12288]) | set(range(8192,8203))
def is_ws(ch): return ord(ch) in WS
class Panic(Exception): pass
class Hang(Exception): pass

def trim_end(s):
    i = len(s)
    while i > 0 and is_ws(s[i-1]): i -= 1
    return s[:i]
def trim_start(s):
    i = 0
    while i < len(s) and is_ws(s[i]): i += 1
    return s[i:]
def trim(s): return trim_end(trim_start(s))
def strip_prefix(s, p): return s[len(p):] if s.startswith(p) else None
def strip_suffix(s, p): return s[:len(s)-len(p)] if s.endswith(p) else None
def unwrap(x):
    if x is None: raise Panic()
    return x
def orr(x, d=""): return d if x is None else x
def trim_end_matches(s, p):
    while s.endswith(p): s = s[:len(s)-len(p)]
    return s
def blen(s): return len(s.encode())

class Iter:
    def __init__(self, src):
        self.b = src.encode(); self.i = 0
    def bound(self, i):
        if i == 0 or i == len(self.b): return True
        if i > len(self.b): return False
        return (self.b[i] & 0xC0) != 0x80
    def get(self, a, z):
        if a > z or not self.bound(a) or not self.bound(z): return None
        return self.b[a:z].decode()
    def next(self):
        for k in range(1, 5):
            if self.bound(self.i + k):
                r = self.get(self.i, self.i + k); self.i += k; return r
        return None
    def peek(self):
        for k in range(1, 5):
            if self.bound(self.i + k): return self.get(self.i, self.i + k)
        return None
    def next_if_eq(self, e):
        if self.peek() == e: return self.next()
        return None
    def cw(self, f):
        st = self.i
        while self.peek() is not None and f(self.peek()): self.next()
        return self.get(st, self.i)
    def cut(self, tail):
        st = self.i
        while self.peek() is not None and not orr(self.get(st, self.i), tail).endswith(tail):
            self.next()
        return self.get(st, self.i)
    def sub(self, st): return self.get(st, self.i)
    def ahead(self, n): return self.get(self.i, self.i + n)
    def find(self, p):
        if not self.bound(self.i): raise Panic()
        j = self.b[self.i:].find(p.encode())
        return None if j < 0 else j
    def peek_line(self):
        j = self.find("\n")
        if j is not None: return self.get(self.i, self.i + j + 1)
        if self.peek() is not None: return self.get(self.i, len(self.b))
        return None
    def consume_line(self):
        j = self.find("\n")
        if j is not None:
            r = self.get(self.i, self.i + j + 1); self.i += j + 1; return r
        if self.peek() is not None:
            r = self.get(self.i, len(self.b)); self.i = len(self.b); return r
        return None
    def skip_while(self, p):
        while True:
            c = self.peek()
            if c is None or not p(c): break
            self.next()

SCH = set("ABCDEFGHIJKLMNOPQRSTUVWXYZabcdefghijklmnopqrstuvwxyz1234567890+.-")
def is_ascii(s): return all(ord(c) < 128 for c in s)

def validate_link(src):
    """-> ('ok', content, scheme|None) with scheme=(kind,text), or ('err', src)"""
    if not is_ascii(src) or any(is_ws(c) for c in src): return ('err', src)
    k = src.find(':'); k = 0 if k < 0 else k
    scheme, path = src[:k], src[k:]
    if scheme.lower() == "javascript" or not is_ascii(scheme): return ('err', src)
    if scheme.lower() == "data" and not path.startswith(":image/"): return ('err', src)
    if len(scheme) != 0 and (len(scheme) < 2 or len(scheme) > 32): return ('err', src)
    parts = src.split(":")
    ss = None
    if ':' in src and all(c in SCH for c in parts[0]) and 2 <= len(parts[0]) <= 32:
        ss = {"http": ('Http', parts[0]), "mailto": ('Email', parts[0]), "irc": ('Irc', parts[0])}.get(parts[0], ('Other', parts[0]))
    if '@' in src and src.count('@') == 1 and '\\' not in src:
        if ss is not None: return ('ok', src.split(":")[-1], ss)
        return ('ok', src, ('Email', 'mailto'))
    if '@' in src and src.count('@') == 1 and '\\' in src: return ('err', src)
    if ss is not None:
        return ('ok', orr(strip_prefix(orr(strip_prefix(src, ss[1])), ":")), ss)
    return ('ok', src, None)

def pct(s):
    for a, b in [('%','%25'),('#','%23'),('[','%5B'),(']','%5D'),('!','%21'),('$','%24'),("'",'%27'),('(','%28'),(')','%29'),('*','%2A'),(' ','%20'),('\\','%5C')]:
        s = s.replace(a, b)
    return s
def url_display(u):
    if u[1] is None: return "http:" + pct(u[0]).replace('&', '&amp;')
    return u[1][1] + ":" + pct(u[0]).replace('&', '&amp;')
def url_unsafe(u):
    a = u[0].replace('&', '&amp;')
    if u[1] is None: return "http:" + a
    if u[1][0] == 'Email': return a
    return u[1][1] + ":" + a

class Err(Exception):
    def __init__(self, c): self.c = c

class Lexer:
    def __init__(self, s): self.it = Iter(s)
    def next_token(self, ignore, tokens):
        ch = self.it.peek()
        if ch is None: return None
        try:
            if ch == "#" and '#' not in ignore: return self.heading()
            if ch == "\n": return self.newlines()
            if ch in " \t": return self.tabs_spaces(tokens)
            if ch in "0123456789": return self.numbers()
            if ch in "*_": return self.astund()
            if ch in "-+": return self.plus_minus()
            if ch == ">": return self.blockquotes()
            if ch == "~": return self.tilde()
            if ch == "`": return self.backticks()
            if ch == "[": return self.links()
            if ch == "!": return self.images()
            if ch == "<": return self.carrot()
            if ch == "|": return self.pipes()
            if ch == "\\": return self.escaped()
            return ('Plaintext', self.it.next())
        except Err as e:
            return ('Plaintext', e.c)
    def heading(self):
        it = self.it
        h = orr(it.cw(lambda c: c == "#"))
        if len(h) > 6: raise Err(h)
        if it.next_if_eq(" ") is None and it.next_if_eq("\t") is None and it.peek() != "\n": raise Err(h)
        line = orr(it.cw(lambda c: c != "\n"))
        if "{#" in line and "}" in line:
            hd = line.split("{", 1)[0]
            line = unwrap(strip_suffix(unwrap(strip_prefix(unwrap(strip_prefix(line, hd)), "{#")), "}"))
        te = trim_end(line)
        lw = line
        if ' ' in te:
            l, r = te.rsplit(' ', 1)
            if all(c == '#' for c in r): lw = l
        if all(c == '#' for c in line): return ('Header', len(h), "", None)
        x = render_ignore(lw.rstrip(" \t"), "#")
        x = orr(strip_prefix(x, "<p>"))
        x = orr(strip_suffix(x, "</p>\n"))
        return ('Header', len(h), trim(x), None)
    def newlines(self):
        s = self.it.cw(lambda c: c == "\n")
        if len(s) >= 2: return ('Newline',)
        raise Err(s)
    def tabs_spaces(self, tokens):
        it = self.it
        st = it.i
        w = it.cw(lambda c: c in "\t ")
        if 1 <= len(w) <= 3 and "\t" not in w: raise Err(w)
        if len(w) >= 2 and "\t" not in w and it.peek() == "\n": return ('LineBreak',)
        line = orr(it.cut("\n"))
        last = tokens[-1][0] if tokens else None
        if w == "    " and last == 'Plaintext' and '#' in line: raise Err(line)
        if w == "    " and last == 'Newline' and '#' in line: raise Err(line)
        if w == "\t" and last == 'Code': return ('Code', line)
        if w in ("\t", "    ", "  \t"): return ('Code', line)
        if w == "\t\t": return ('Code', "\t" + line)
        if it.peek() == "\t" or it.peek() == " ":
            t = self.tabs_spaces(tokens)
            if t[0] == 'CodeBlock': return ('CodeBlock', orr(it.sub(st)), "")
            raise Err("")
        raise Err(orr(it.sub(st)))
    def numbers(self):
        it = self.it
        st = it.i
        c = unwrap(it.next())
        if it.next_if_eq(".") == ".":
            if it.next_if_eq(" ") != " ": raise Err(orr(it.sub(st)))
            return ('OrderedListEntry', orr(it.cw(lambda c: c != "\n")))
        raise Err(c)
    def escaped(self):
        it = self.it
        it.next()
        if it.peek() == "#": return ('Plaintext', orr(it.cw(lambda c: c == "#")))
        elif it.peek() is not None: return ('Plaintext', orr(it.next()))
        raise Err("EOF")
    def astund(self):
        it = self.it
        st = it.i
        a = orr(it.cw(lambda c: c in "*_\t"))
        if len(a) == 1 and it.next_if_eq(" ") is not None:
            s = orr(it.cw(lambda c: c != "\n")); it.next()
            return ('UnorderedListEntry', [('Plaintext', s)])
        if all(x == '*' for x in a) and it.peek() == "\n": return ('HorizontalRule',)
        n = len(a)
        if n == 1:
            s = orr(it.cw(lambda c: c != "*" and c != "_"))
            if it.peek() != "*" or it.peek() != "_":
                it.next(); return ('Italic', s)
            raise Err(orr(it.sub(st)))
        if n in (2, 3):
            s = orr(it.cw(lambda c: c != "*" and c != "_"))
            t = orr(it.cw(lambda c: c == "*" or c == "_"))
            if len(t) == n: return ('Bold' if n == 2 else 'BoldItalic', s)
            raise Err(orr(it.sub(st)))
        if all(x == '*' for x in a.replace("\t", "")) or all(x == '_' for x in a): return ('HorizontalRule',)
        raise Err(a)
    def blockquotes(self):
        it = self.it
        r = orr(it.cw(lambda c: c == ">"))
        if it.peek() not in (" ", "\t"): raise Err(r)
        s = orr(it.cw(lambda c: c != "\n"))
        it.next_if_eq("\n")
        return ('BlockQuote', len(r) & 255, s)
    def plus_minus(self):
        it = self.it
        st = it.i
        s = orr(it.cw(lambda c: c == "-" or c == "+"))
        if len(s) >= 3: return ('HorizontalRule',)
        if len(s) == 2: raise Err(orr(it.sub(st)))
        if len(s) != 1: raise Err("string length error")
        li = it.i
        toks = [('Plaintext', orr(it.cw(lambda c: c != "\n")))]
        while it.ahead(3) == "\n\n\t":
            it.next(); it.next(); it.next()
            toks.append(('Plaintext', orr(it.cw(lambda c: c != "\n"))))
        line = orr(it.sub(li))
        it.next_if_eq("\n")
        if line.startswith(" [ ] "): return ('TaskListItem', 'U', line[5:])
        if line.startswith(" [x] ") or line.startswith(" [X] "): return ('TaskListItem', 'C', line[5:])
        p = it.peek_line()
        if p is not None and p.startswith("  "):
            toks += lex(orr(it.consume_line()), "")
        elif p is not None and p.startswith("\t"):
            toks += lex(orr(it.consume_line())[1:], "")
        return ('UnorderedListEntry', toks)
    def tilde(self):
        it = self.it
        st = it.i
        l = it.cw(lambda s: s == "~")
        if len(l) == 1: raise Err(l)
        if len(l) == 2:
            line = orr(it.cw(lambda s: s != "~"))
            t = orr(it.cw(lambda s: s == "~"))
            if len(l) != len(t): raise Err(orr(it.sub(st)))
            return ('Strikethrough', line)
        raise Err(l)
    def backticks(self):
        it = self.it
        st = it.i
        l = orr(it.cw(lambda c: c == "`"))
        lang = ""
        if len(l) == 3:
            if it.next_if_eq("\n") != "\n":
                lang = orr(it.cw(lambda c: c != "\n")); it.next()
            s = orr(it.cw(lambda c: c != "`"))
            t = orr(it.cw(lambda c: c == "`"))
            if len(l) != len(t): raise Err(orr(it.sub(st)))
            return ('CodeBlock', s, lang)
        tail = "`" * len(l)
        s = orr(it.cut(tail))
        if not s.endswith(tail): raise Err(orr(it.sub(st)))
        s = trim_end_matches(s, tail)
        if s.startswith(' ') and s.endswith(' '): return ('Code', s.lstrip(' ').rstrip(' '))
        return ('Code', s)
    def links(self):
        it = self.it
        st = it.i
        if it.next_if_eq("[") != "[": raise Err("")
        title = orr(it.cw(lambda c: c != "]"))
        if it.next_if_eq("]") != "]": raise Err(orr(it.sub(st)))
        if title.startswith("^") and it.next_if_eq(":") == ":":
            rid = orr(strip_prefix(title, "^"))
            ni = it.i
            while True:
                it.cw(lambda c: c != "\n"); it.next()
                if it.peek() != " " and it.peek() != "\t": break
                if it.next_if_eq("\t") == "\t": continue
                if it.peek() == " ":
                    sp = orr(it.cw(lambda c: c == " "))
                    if len(sp) not in (2, 4): raise Err(orr(it.sub(st)))
                    continue
                break
            if any(is_ws(c) for c in rid): raise Err(orr(it.sub(st)))
            return ('Footnote', rid, trim(orr(it.sub(ni))))
        if it.next_if_eq("(") != "(": raise Err(orr(it.sub(st)))
        link = orr(it.cw(lambda c: c != ")" and c != " "))
        if it.peek() != ")" and it.peek() != " ": raise Err(orr(it.sub(st)))
        if it.next_if_eq(")") == ")":
            v = validate_link(link)
            if v[0] == 'ok': return ('Link', v[1:], title, None)
            raise Err(v[1])
        if it.peek() == " ":
            hover = orr(it.cw(lambda c: c != ")"))
            it.skip_while(lambda c: c != "\n"); it.next()
            v = validate_link(link)
            if v[0] == 'ok': return ('Link', v[1:], title, hover)
            raise Err(v[1])
        raise Err("")
    def images(self):
        it = self.it
        st = it.i
        if it.next_if_eq("!") != "!": raise Err("")
        try: t = self.links()
        except Err: raise Err(orr(it.sub(st)))
        if t[0] == 'Link': return ('Image', t[1][0], t[2])
        raise Err("Non link token returned from lex_links")
    def carrot(self):
        it = self.it
        st = it.i
        if it.next_if_eq("<") != "<": raise Err("")
        s = orr(it.cw(lambda c: c != ">"))
        g = it.next_if_eq(">")
        if g == ">":
            if s == "details":
                it.next_if_eq("\r")
                if it.next_if_eq("\n") is None: raise Err(s)
                return self.details()
            if len(s) >= 1:
                if any(is_ws(c) for c in s): raise Err(orr(it.sub(st)))
                v = validate_link(s)
                if v[0] == 'ok' and v[2] is not None: return ('Link', v[1:], None, None)
                raise Err(orr(it.sub(st)))
            raise Err("<>")
        raise Err(s)
    def details(self):
        it = self.it
        sm = orr(it.cw(lambda c: c != "\n" and c != "\r"))
        it.next_if_eq("\r")
        if (not sm.startswith("<summary>") or not sm.endswith("</summary>")) and ((~blen(sm)) & (2**64-1)) >= 20: raise Err(sm)
        sm = orr(strip_suffix(unwrap(strip_prefix(sm, "<summary>")), "</summary>"))
        ri = it.i
        rt = orr(it.cut("</details>"))
        if "<details>" in rt:
            o, c = rt.count("<details>"), rt.count("</details>")
            while o == c:
                before = it.i
                it.cut("</details>")
                if it.i == before: raise Hang()
                rt = orr(it.sub(ri))
                o, c = rt.count("<details>"), rt.count("</details>")
        return ('Detail', sm, lex(orr(strip_suffix(rt, "</details>")), ""))
    def pipes(self):
        it = self.it
        st = it.i
        lines = []
        while it.next_if_eq("|") == "|":
            lines.append(orr(it.cw(lambda c: c != "\n"))); it.next()
        if len(lines) < 3: raise Err(orr(it.sub(st)))
        if not all(l.count("|") == lines[0].count("|") for l in lines): raise Err(orr(it.sub(st)))
        hs = [trim(x) for x in lines.pop(0).split("|") if x != ""]
        al = []
        for x in lines.pop(0).split("|"):
            if x == "": continue
            k = (trim(x).startswith(":"), trim(x).endswith(":"))
            al.append({(True, False): 'left', (True, True): 'center', (False, True): 'right'}.get(k, 'left'))
        rows = []
        for l in lines:
            r = []
            for e in [trim(x) for x in l.split("|") if x != ""]:
                r.append([t for t in lex(e, "") if t[0] in ('Code', 'Link', 'Bold', 'Italic', 'BoldItalic', 'Plaintext')])
            rows.append(list(zip(al, r)))
        return ('Table', list(zip(al, hs)), rows)

def lex(src, ignore):
    l = Lexer(src); toks = []
    while True:
        t = l.next_token(ignore, toks)
        if t is None: return toks
        toks.append(t)

def san(s):
    for a, b in [('&','&amp;'),('<','&lt;'),('>','&gt;'),('"','&quot;'),("'",'&apos;'),('[','&lbrack;'),(']','&rbrack;'),('{','&lbrace;'),('}','&rbrace;'),('|','&mid;'),('\\',''),('~','&tilde;'),(')','&#41;'),('(','&#40;')]:
        s = s.replace(a, b)
    return s

INL = ('Plaintext','Italic','Bold','BoldItalic','Strikethrough','Link')
def parse(tokens):
    h = []
    def push(s): h.append(s)
    q = 0; task = par = ol = ul = code = False; refs = []
    for t in tokens:
        k = t[0]
        if k == 'Plaintext' and trim(t[1]) == "": pass
        elif k in ('Tab', 'DoubleTab'): pass
        elif k in ('OrderedListEntry', 'UnorderedListEntry', 'Newline') and (ol or ul): pass
        elif k in ('TaskListItem', 'Newline') and task: pass
        elif k in INL and not par:
            push("</blockquote>" * q); q = 0
            par = True; push("<p>")
        elif ol:
            ol = False; push("</ol>\n")
            if not par: par = True; push("<p>")
        elif ul:
            ul = False; push("</ul>\n")
            if not par: par = True; push("<p>")
        elif task:
            task = False; push("</ul>\n")
            if not par: par = True; push("<p>")
        elif k in ('CodeBlock', 'Newline', 'Header') and par:
            par = False; push("</p>\n")
        elif k in ('BlockQuote', 'Newline') and q > 0: pass
        elif k == 'Code' and not code:
            push("<pre><code>"); code = True

        if k == 'Plaintext':
            x = t[1]
            if trim(x) == "": continue
            n = x.rfind('\n')
            if n >= 0:
                after = x[n:]
                if all(is_ws(c) for c in after): x = trim_end_matches(x, after)
            if "[^" in x and "]" in x:
                cnt = 1
                for p in x.split("[^"):
                    if trim_end(p).endswith("]"):
                        p = trim_end(p).rstrip("]")
                        push(f'<sup id="fnref:{san(p)}" role="doc-noteref"><a href="#fn:{san(p)}" class="footnote" rel="footnote">{cnt}</a></sup>')
                        cnt += 1
                    else: push(p)
            else: push(san(x.lstrip('\n')))
        elif k == 'Header':
            push(f'<h{t[1]}>{t[2]}</h{t[1]}>\n')
        elif k == 'OrderedListEntry':
            if not ol: ol = True; push("<ol>\n")
            push(f"<li>\n{san(t[1])}</li>\n")
        elif k == 'UnorderedListEntry':
            if not ul: ul = True; push("<ul>\n")
            push("<li>")
            if all(c[0] == 'Plaintext' for c in t[1]): push("\n")
            for c in t[1]:
                if c[0] == 'Plaintext':
                    x = c[1]
                    if x.startswith("\t\t"): x = x[1:]
                    push(render(x.lstrip(" ")).replace("<pre><code>", "<pre><code>  "))
            push("</li>\n")
        elif k == 'Image':
            l, ti = t[1], t[2]
            if trim(l) == "":
                push('<p><img src="data:,"></p>' if ti is None else f'<p><img src="data:," alt="{san(ti)}"></p>')
            elif ti is None: push(f'<p><img src="{l}"> referrerpolicy="no-referrer"></p>')
            else: push(f'<p><img src="{l}" alt="{san(ti)}" referrerpolicy="no-referrer"></p>')
        elif k == 'Link':
            u, ti, ho = t[1], t[2], t[3]
            if ti is not None and ho is not None: push(f'<a href=>"{url_display(u)}" title="{ho}">{san(ti)}</a>')
            elif ti is not None: push(f'<a href="{url_display(u)}">{san(ti)}</a>')
            elif ho is not None: push(f'<a href="{url_display(u)}" title="{san(ho)}">{url_display(u)}</a>')
            else: push(f'<a href="{url_display(u)}">{url_unsafe(u)}</a>')
        elif k == 'Detail':
            if par: push("</p>\n"); par = False
            push("<details>\n<summary>" + san(t[1]) + "</summary>\n" + parse(t[2]) + "\\\n\t\t\t\t\t\t\t n</details>")
        elif k == 'Italic': push(f"<em>{san(t[1])}</em>")
        elif k == 'Bold': push(f"<strong>{san(t[1])}</strong>")
        elif k == 'BoldItalic': push(f"<strong><em>{san(t[1])}</em></strong>")
        elif k == 'BlockQuote':
            if par: push("</p>"); par = False
            l = t[1]
            if l < q: push("</blockquote>" * (q - l)); q = l
            elif l > q: push("<blockquote>\n" * (l - q)); q = l
            if t[2] != "": push(render(san(t[2].lstrip(" "))).replace("\t", "  "))
        elif k == 'TaskListItem':
            if not task: task = True; push('<ul class="contains-task-list">')
            if t[1] == 'C': push(f'<li class="task-list-item"><input type="checkbox" class="task-list-item-checkbox" checked="">{san(t[2])}</li>')
            else: push(f'<li class="task-list-item"><input type="checkbox" class="task-list-item-checkbox">{san(t[2])}</li>')
        elif k == 'Table':
            hs, rows = t[1], t[2]
            if not rows: raise Panic()
            if len(hs) != len(rows[0]): continue
            push('<table class="table table-bordered">\n\t<thead>\n\t<tr>\n')
            for a, x in hs: push(f'\t\t<th style="text-align: {a}">{san(x)}</th>')
            push("\t</tr>\n\t</thead>\n\t<tbody>")
            for row in rows:
                push("\n\t<tr>")
                for a, e in row:
                    rs = ""
                    for tok in e:
                        kk = tok[0]
                        if kk == 'Plaintext': rs += san(tok[1])
                        elif kk == 'Italic': rs += f"<em>{san(tok[1])}</em>"
                        elif kk == 'Bold': rs += f"<strong>{san(tok[1])}</strong>"
                        elif kk == 'BoldItalic': rs += f"<strong><em>{san(tok[1])}</em></strong>"
                        else: rs += parse(e)
                    push(f'\n\t\t<td style="text-align: {a}">{rs}</td>')
                push("\n\t</tr>")
            push("\n\t</tbody>\n</table>")
        elif k == 'Strikethrough': push(f"<strike>{san(t[1])}</strike>")
        elif k == 'Code': push(san(t[1]))
        elif k == 'HorizontalRule': push("<hr />\n")
        elif k == 'Footnote': refs.append((t[1], t[2]))
    if par: push("</p>\n")
    push("</blockquote>\n" * q)
    if task or ul: push("</ul>")
    if ol: push("</ol>")
    out = "".join(h)
    if not out.endswith("\n"): out += "\n"
    if code: out += "</code></pre>"
    if refs:
        out += '<div class="footnotes" role="doc-endnotes">\n\t<ol>\n'
        for a, b in refs:
            out += '\t\t<li id="fn:1" role="doc-endnote">'
            out += f'\t\t\t<p>{san(b)}<a href="#fnref:{san(a)}" class="reversefootnote" role="doc-backlink">↩</a></p>'
            out += "\t\t</li>"
        out += "\t</ol>\n</div>\n"
    return out

def render_ignore(s, ig): return parse(lex(s, ig))
def render(s): return render_ignore(s, "")

def outcome(s):
    try: return "R " + " ".join(str(ord(c)) for c in render(s))
    except Panic: return "P"
    except Hang: return "H"
