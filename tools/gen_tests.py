#!/usr/bin/env python3
"""Translate the unit tests of /repo/unittests/uri/test_uri.cpp, test_punycode.cpp and test_pctdecode.cpp into
rocq/theories/TestRepo.v, statement by statement, and stop at any statement that is not understood.
(The tests of the other files are written by hand in rocq/theories/TestMore.v.)   Usage: gen_tests.py [REPO]"""
import re, sys, os
REPO = sys.argv[1] if len(sys.argv) > 1 else "/repo"
T = REPO + "/unittests/uri/"
HERE = os.path.dirname(os.path.abspath(__file__))

def cstr(tok):
    """the bytes of one or more adjacent C string literals"""
    out = b""
    for m in re.finditer(r'(u8)?"((?:[^"\\]|\\.)*)"(?:sv|s)?', tok):
        s, i = m.group(2), 0
        while i < len(s):
            if s[i] == "\\":
                if s[i+1] == "x":
                    j = i + 2
                    while j < len(s) and s[j] in "0123456789abcdefABCDEF": j += 1
                    out += bytes([int(s[i+2:j], 16)]); i = j
                else:
                    out += {"\\": b"\\", '"': b'"', "n": b"\n", "t": b"\t", "0": b"\0", "'": b"'"}[s[i+1]]; i += 2
            else:
                out += s[i].encode(); i += 1
    return out

def ss(b):
    if b == b"": return "[]"
    if all(32 <= c < 127 for c in b): return '(ss "%s")' % b.decode().replace('"', '""')
    return "[" + "; ".join("chr %d" % c for c in b) + "]"

STR = r'(?:u8)?"(?:[^"\\]|\\.)*"(?:sv|s)?'
def lits(s): return [cstr(x) for x in re.findall(STR, s)]
def slist(bs): return "[" + "; ".join(ss(b) for b in bs) + "]"

def strip_comments(src):
    src = re.sub(r'R"([^(\s]*)\((.*?)\)\1"', lambda m: '"' + m[2].replace("\\", "\\\\").replace('"', '\\"') + '"', src, flags=re.S)
    return re.sub(r'("(?:[^"\\\n]|\\.)*")|//[^\n]*', lambda m: m.group(1) or "", src)

def tests(src):
    for m in re.finditer(r'^TEST(?:_F)? \((\w+), (\w+)\) \{(.*?)^\}', src, re.S | re.M):
        yield m.start(), m.group(1), m.group(2), m.group(3)

def statements(body):
    """split at semicolons outside of literals and braces"""
    out, cur, depth, i = [], "", 0, 0
    while i < len(body):
        m = re.compile(STR + r"|'(?:[^'\\]|\\.)'").match(body, i)
        if m and body[i] in "\"'u" and (body[i] != "u" or body.startswith('u8"', i)):
            cur += m.group(0); i = m.end(); continue  # (no literal of the tests has two blanks in a row or "( ")
        c = body[i]
        if c in "({": depth += 1
        if c in ")}": depth -= 1
        if c == ";" and depth == 0: out.append(re.sub(r"\( (?!\))", "(", " ".join(cur.split()))); cur = ""
        else: cur += c
        i += 1
    assert not cur.strip(), cur
    return [s for s in out if s]

class Unknown(Exception): pass
def full(pat, s):
    return re.fullmatch(pat, s)
SL = "((?:%s ?)+)" % STR

FIELDS = {"scheme": "p_scheme", "query": "p_query", "fragment": "p_fragment"}
def uri_expect(st, v, claims, state):
    """an expectation about the parts x (a Coq variable named v)"""
    p = "p_path " + v
    if full(r'(ASSERT|EXPECT)_TRUE \(x\)', st): return True
    if m := full(r'EXPECT_EQ \(x->(scheme|query|fragment), %s\)' % SL, st):
        claims.append("%s %s = Some %s" % (FIELDS[m[1]], v, ss(cstr(m[2])))); return True
    if m := full(r'EXPECT_FALSE \(x->(scheme|query|fragment)(?:\.has_value \(\))?\)', st):
        claims.append("%s %s = None" % (FIELDS[m[1]], v)); return True
    if full(r'(?:EXPECT|ASSERT)_FALSE \(x->authority(?:\.has_value \(\))?\)', st): claims.append("p_authority %s = None" % v); return True
    if full(r'(?:EXPECT|ASSERT)_TRUE \(x->authority(?:\.has_value \(\))?\)', st): claims.append("p_authority %s <> None" % v); return True
    if m := full(r'EXPECT_EQ \(x->authority->(userinfo|port), %s\)' % SL, st):
        claims.append("option_map ModelUri.%s (p_authority %s) = Some (Some %s)" % (m[1], v, ss(cstr(m[2])))); return True
    if m := full(r'EXPECT_FALSE \(x->authority->(userinfo|port)(?:\.has_value \(\))?\)', st):
        claims.append("option_map ModelUri.%s (p_authority %s) = Some None" % (m[1], v)); return True
    if m := full(r'EXPECT_EQ \(x->authority->host, %s\)' % SL, st):
        claims.append("option_map ModelUri.host (p_authority %s) = Some %s" % (v, ss(cstr(m[1])))); return True
    if m := full(r'EXPECT_(TRUE|FALSE) \(x->path\.absolute\)', st):
        claims.append("absolute (%s) = %s" % (p, m[1].lower())); return True
    if full(r'EXPECT_TRUE \(x->path\.segments\.empty \(\)\)', st): claims.append("segments (%s) = []" % p); return True
    if m := full(r'EXPECT_THAT \(x->path\.segments, ElementsAre \((.*)\)\)', st):
        assert re.fullmatch(r'\s*%s(\s*,\s*%s)*\s*' % (STR, STR), m[1]), st
        claims.append("segments (%s) = %s" % (p, slist(lits(m[1])))); return True
    if m := full(r'EXPECT_EQ \(static_cast<std::string> \(x->path\), %s\)' % SL, st):
        claims.append("path_string (%s) = %s" % (p, ss(cstr(m[1])))); return True
    if m := full(r'EXPECT_EQ \(static_cast<std::filesystem::path> \(x->path\)(?:\.generic_string \(\))?, %s\)' % SL, st):
        claims.append("path_filesystem (%s) = %s" % (p, ss(cstr(m[1])))); return True
    return False

def conj(claims): return " /\\ ".join(claims) if claims else "True"

def uri_split_test(body):
    sts = statements(body)
    m = full(r'(?:auto|std::optional<uri::parts>)(?: const)? ?x = uri::(split|split_reference) \(%s\)' % SL, sts[0])
    if not m: raise Unknown(sts[0])
    before, after, cur, v, x2 = [], [], None, "x", None
    cur = before
    for st in sts[1:]:
        if full(r'x->path\.remove_dot_segments \(\)', st): cur, v = after, "y"; continue
        if m2 := full(r'auto const x2 = uri::split_reference \(%s\)' % SL, st): x2 = cstr(m2[1]); continue
        if full(r'EXPECT_EQ \(x, x2\)', st):
            after.append("match split_reference sg 200 %s with Ok (Some z) => parts_eqb y z = true | _ => False end" % ss(x2)); continue
        if not uri_expect(st, v, cur, None): raise Unknown(st)
    concl = conj(before)
    if cur is after:
        concl += " /\\ let y := mkparts (p_scheme x) (p_authority x) (remove_dot_segments (p_path x)) (p_query x) (p_fragment x) in " + conj(after)
    return "forall sg : bool, match %s sg 200 %s with Ok (Some x) => %s | _ => False end" % (m[1], ss(cstr(m[2])), concl)

def build_parts(sts):
    """the assignments to a parts (or path) p; returns (Coq term of parts, rest of the statements)"""
    d = dict(scheme=None, query=None, fragment=None, auth=None, absolute=False, segs=[])
    i = 0
    for i, st in enumerate(sts):
        if full(r'uri::parts p', st) or full(r'struct uri::parts::path p', st) or full(r'using parts_authority = struct uri::parts::authority', st): continue
        if m := full(r'p\.(scheme|query|fragment) = (%s)' % STR, st): d[m[1]] = cstr(m[2]); continue
        if full(r'p\.authority\.emplace \(\)', st): d["auth"] = dict(userinfo=None, host=b"", port=None); continue
        if m := full(r'p\.authority->(userinfo|host|port) = (%s)' % STR, st): d["auth"][m[1]] = cstr(m[2]); continue
        if m := full(r'p\.authority = parts_authority\{(%s), (%s), std::nullopt\}' % (STR, STR), st):
            d["auth"] = dict(userinfo=cstr(m[1]), host=cstr(m[2]), port=None); continue
        if full(r'p\.(path\.)?absolute = true', st): d["absolute"] = True; continue
        if m := full(r'p\.(?:path\.)?segments\.emplace_back \((%s)?\)' % STR, st): d["segs"].append(cstr(m[1] or "")); continue
        break
    o = lambda x: "None" if x is None else "(Some %s)" % ss(x)
    a = "None" if d["auth"] is None else "(Some (mkauth %s %s %s))" % (o(d["auth"]["userinfo"]), ss(d["auth"]["host"]), o(d["auth"]["port"]))
    return "(mkparts %s %s (mkpath %s %s) %s %s)" % (o(d["scheme"]), a, str(d["absolute"]).lower(), slist(d["segs"]), o(d["query"]), o(d["fragment"])), sts[i:]

def parts_test(body):
    p, rest = build_parts(statements(body))
    claims, consts = [], {}
    for st in rest:
        if m := full(r'auto const expected = (%s)' % STR, st): consts["expected"] = cstr(m[1]); continue
        if m := full(r'EXPECT_EQ \(uri::compose \(p\), (expected|%s)\)' % STR, st):
            claims.append("compose p = %s" % ss(consts["expected"] if m[1] == "expected" else cstr(m[1]))); continue
        if full(r'EXPECT_EQ \(uri::split_reference \(expected\), p\)', st):
            claims.append("match split_reference sg 200 %s with Ok (Some x) => parts_eqb x p = true | _ => False end" % ss(consts["expected"])); continue
        if full(r'std::string const& c = uri::compose \(p\)', st) or full(r'ASSERT_TRUE \(p2\)', st): continue
        if full(r'auto const& p2 = uri::split_reference \(c\)', st): continue
        if full(r'EXPECT_EQ \(p, \*p2\)', st):
            claims.append("match split_reference sg 200 (compose p) with Ok (Some x) => parts_eqb p x = true | _ => False end"); continue
        if m := full(r'EXPECT_(TRUE|FALSE) \(p\.valid \(\)\)(?: << .*)?', st): claims.append("parts_valid sg 200 p = Ok %s" % m[1].lower()); continue
        if full(r'EXPECT_EQ \(p\.valid \(\), uri::split \(uri::compose \(p\)\)\.has_value \(\)\)', st):
            claims.append("match parts_valid sg 200 p, split sg 200 (compose p) with Ok b, Ok o => b = match o with Some _ => true | None => false end | _, _ => False end"); continue
        if m := full(r'EXPECT_EQ \(static_cast<std::filesystem::path> \(p\), std::filesystem::path \((%s)\)\)' % STR, st):
            claims.append("path_filesystem (p_path p) = %s" % ss(cstr(m[1]))); continue
        raise Unknown(st)
    return "forall sg : bool, let p := %s in %s" % (p, conj(claims))

def join_test(body):
    claims = []
    for st in statements(body):
        m = full(r'EXPECT_EQ \(uri::split \((%s)\), uri::join \((base_|%s), (%s)\)\)' % (STR, STR, STR), st)
        if not m: raise Unknown(st)
        b = b"http://a/b/c/d;p?q" if m[2] == "base_" else cstr(m[2])
        claims.append("same_uri (split sg 200 %s) (join sg 200 %s %s true)" % (ss(cstr(m[1])), ss(b), ss(cstr(m[3]))))
    return "forall sg : bool, " + conj(claims)

def u32(s):
    out = []
    for t in [t.strip() for t in re.findall(r"'(?:[^'\\]|\\.)'|[^,']+", s) if t.strip()]:
        if t.startswith("'"): out.append(cstr('"' + t[1:-1].replace('"', '\\"') + '"')[0])
        elif re.fullmatch(r"0x[0-9A-Fa-f]+", t): out.append(int(t, 16))
        elif t in U32C: out.append(U32C[t])
        else: raise Unknown(t)
    return "[" + "; ".join(str(n) for n in out) + "]%N"
U32C = {}

def puny_test(body):
    body = re.sub(r'static_assert \((?:[^;])*\);', '', body)
    U32C.clear()
    env, claims, last = {}, [], None
    for st in statements(body):
        if m := full(r'constexpr auto (\w+) = char32_t\{(0x[0-9A-Fa-f]+)\}', st): U32C[m[1]] = int(m[2], 16); continue
        if m := full(r'auto const (\w+) = std::u32string ?\{(.*)\}', st): env[m[1]] = u32(m[2]); continue
        if m := full(r'auto const (\w+) = %s' % SL, st): env[m[1]] = ss(cstr(m[2])); continue
        if full(r'std::string actual', st): continue
        if m := full(r'(?:auto const \[_1, _2, (has_non_basic)\] = )?uri::punycode::encode \((\w+), (true|false), std::back_inserter \(actual\)\)', st):
            last = "ModelPuny.encode %s %s" % (env[m[2]], m[3]); continue
        if m := full(r'EXPECT_EQ \(actual, (\w+)\)', st): claims.append("match %s with Ok (e, _) => e = %s | _ => False end" % (last, env[m[1]])); continue
        if m := full(r'EXPECT_(TRUE|FALSE) \(has_non_basic\)', st): claims.append("match %s with Ok (_, b) => b = %s | _ => False end" % (last, m[1].lower())); continue
        if m := full(r'auto const decoded = uri::punycode::decode \((\w+|%s)\)' % STR, st): dec = env[m[1]] if m[1] in env else ss(cstr(m[1])); continue
        if full(r'ASSERT_EQ \(decoded\.index \(\), (decoded_success_result_index|0U)\)', st): continue
        if m := full(r'EXPECT_EQ \(std::get<decoded_success_result_index> \(decoded\)\.str, (\w+)\)', st):
            claims.append("ModelPuny.decode %s = Ok (inl %s)" % (dec, env[m[1]])); continue
        if full(r'EXPECT_EQ \(std::get<decoded_success_result_index> \(decoded\)\.in, std::end \(\w+\)\)', st): continue
        if m := full(r'EXPECT_EQ \(std::get<0U> \(decoded\), make_error_code \(uri::punycode::decode_error_code::(bad_input|overflow)\)\)', st):
            claims.append("ModelPuny.decode %s = Ok (inr ModelPuny.%s)" % (dec, m[1])); continue
        if m := full(r'DecodeEncodeRoundTrip \((%s)\)' % STR, st):
            claims.append("decode_encode_round_trip %s" % ss(cstr(m[1]))); continue
        raise Unknown(st)
    return conj(claims)

out = ['''(* GENERATED by tools/gen_tests.py from /repo/unittests/uri: the project's unit tests, evaluated in the model.
   They show that the model agrees with the code on what the project's authors checked; they are tests, not properties, and no theorem rests on them.
   uri::split etc. are run for char signed and unsigned (sg); the .in member of a Punycode result is not part of the model. *)
From Verif Require Import Base ModelUri ModelPct ModelFs.
From Verif Require ModelPuny Rfc3986.
Local Open Scope list_scope.
Definition same_uri (a b : outcome (option parts)) : Prop :=
  match a, b with Ok (Some x), Ok (Some y) => parts_eqb x y = true | Ok None, Ok None => True | _, _ => False end.
(* test_punycode.cpp:514-543 *)
Definition decode_encode_round_trip (original : str) : Prop :=
  let original := match original with c :: r => if Ascii.eqb c "-" && negb (existsb (Ascii.eqb "-"%char) r) then r else original | [] => [] end in
  match ModelPuny.decode original with
  | Ok (inl u) => match ModelPuny.encode u false with
                  | Ok (e, _) => length e = length original /\\ map Rfc3986.lower e = map Rfc3986.lower original
                  | _ => False end
  | Ok (inr _) => True
  | _ => False end.
Ltac run_sg := intros []; vm_compute; repeat split; discriminate.
Ltac run := vm_compute; repeat split; discriminate.
''']
count = 0
def emit(name, line, f, stmt, tac):
    global count
    count += 1
    out.append("(* %s:%d *)\nExample %s : %s.\nProof. %s. Qed." % (f, line, name, stmt, tac))

for f in ["test_uri.cpp", "test_punycode.cpp"]:
    raw = open(T + f).read()
    for m in re.finditer(r'^TEST(?:_F)? \((\w+), (\w+)\) \{(.*?)^\}', raw, re.S | re.M):
        line = raw[:m.start()].count("\n") + 1
        suite, name, body = m[1], m[2], strip_comments(m[3])
        try:
            if suite in ("UriSplit", "RemoveDotSegments"): s, t = uri_split_test(body), "run_sg"
            elif suite in ("UriCompose", "PartsValid", "UriFileSystemPath"): s, t = parts_test(body), "run_sg"
            elif suite == "Join": s, t = join_test(body), "run_sg"
            elif suite == "Punycode": s, t = puny_test(body), "run"
            else: raise Unknown(suite)
        except Unknown as e:
            sys.exit("%s:%d %s.%s: not understood: %s" % (f, line, suite, name, e))
        if t == "run_sg" and not s.startswith("forall"): sys.exit(name)
        emit("%s_%s" % (suite, name), line, f, s, t)
raw = open(T + "test_pctdecode.cpp").read()
claims = []
for m in re.finditer(r'std::make_tuple \((%s), (%s)\)' % (STR, STR), raw):
    claims.append("pctdecode %s = Ok %s" % (ss(cstr(m[1])), ss(cstr(m[2]))))
emit("UriPctDecode_all", raw[:raw.index("INSTANTIATE")].count("\n") + 1, "test_pctdecode.cpp", conj(claims), "run")
open(HERE + "/../rocq/theories/TestRepo.v", "w").write("\n".join(out) + "\n")
print(count, "tests")
