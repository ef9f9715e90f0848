#!/usr/bin/env python3
"""Turn the repo's own integration tests (/repo/tests/*.rs) that use a plain `Registry::new()` and
`registry.once` into vm_compute regression examples for the model (rocq/theories/Tests.v).
These are tests of the model, not proofs; run by hand when the tests change."""
import re, json, glob, sys
out = []
def cs(s): return 'lit "' + s.replace('"', '""') + '"'
def j(v):
    if v is None: return "JNull"
    if v is True: return "(JBool true)"
    if v is False: return "(JBool false)"
    if isinstance(v, int): return "(JNum (PosInt %d))" % v if v >= 0 else "(JNum (NegInt (%d)))" % v
    if isinstance(v, str): return "(JStr (%s))" % cs(v)
    if isinstance(v, list): return "(JArr [" + "; ".join(map(j, v)) + "])"
    if isinstance(v, dict): return "(JObj [" + "; ".join("(%s, %s)" % (cs(k), j(v[k])) for k in sorted(v)) + "])"
    raise Exception(v)
def rs(lit):
    lit = lit.strip()
    if lit.startswith('r#"'): return lit[3:-2]
    if lit.startswith('r"'): return lit[2:-1]
    return json.loads(lit)
skipped = []
names = set()
for f in sorted(glob.glob('/repo/tests/*.rs')):
    t = open(f).read()
    mod = re.search(r'/(\w+)\.rs$', f).group(1)
    for m in re.finditer(r'#\[test\]\s*fn (\w+)\(\)[^{]*\{(.*?)\n\}\n', t, re.S):
        name, body = m.groups()
        ok = 'registry.once(NAME, value, &data)?' in body and 'helpers_mut' not in body and 'handlers_mut' not in body
        if not ok: skipped.append(mod + '::' + name); continue
        val = re.search(r'let value\s*=\s*(r#".*?"#|r".*?"|".*?");', body, re.S)
        dat = re.search(r'let data = json!\((.*?)\);', body, re.S)
        asr = re.search(r'assert_eq!\(\s*(r#".*?"#|r".*?"|".*?"|\w+),\s*&?result', body, re.S)
        ins = re.findall(r'registry\.insert\("(\w+)",\s*"(.*?)"\.to_string\(\)\)', body)
        if not (val and dat and asr): skipped.append(mod + '::' + name + ' (shape)'); continue
        v = rs(val.group(1)); d = json.loads(dat.group(1)); e = asr.group(1)
        if e == 'value': e = v
        elif e == 'expected': e = rs(re.search(r'let expected = (r#".*?"#|r".*?"|".*?");', body, re.S).group(1))
        else: e = rs(e)
        strict = 'set_strict(true)' in body
        esc = 'escape::noop' in body
        reg = 'reg0'
        for a, b in ins: reg = '(ins (%s) (%s) %s)' % (cs(a), cs(b), reg)
        if strict: reg = '(set_strict true %s)' % reg
        if esc: reg = '(set_escape noop %s)' % reg
        cn = name if name not in names else mod + '_' + name
        names.add(cn)
        out.append('(** tests/%s.rs %s *)\nExample t_%s : once %s (%s) %s = AOk (%s).\nProof. vm_compute. reflexivity. Qed.\n' % (mod, name, cn, reg, cs(v), j(d), cs(e)))

# lexer tests
KB={'Text':'BText','StartStatement':'BStartStatement','StartRawBlock':'BStartRawBlock','EndRawBlock':'BEndRawBlock','StartRawComment':'BStartRawComment','StartComment':'BStartComment','StartRawStatement':'BStartRawStatement','StartBlockScope':'BStartBlockScope','EndBlockScope':'BEndBlockScope','StartLink':'BStartLink','Newline':'BNewline'}
KP={'Identifier':'KIdent','End':'KEnd','WhiteSpace':'KWhiteSpace','Partial':'KPartial','PathDelimiter':'KPathDelim','ParentRef':'KParentRef','LocalIdentifier':'KLocalIdent','StartSubExpression':'KStartSub','EndSubExpression':'KEndSub','DoubleQuoteString':'KDoubleQuote','SingleQuoteString':'KSingleQuote','ExplicitThisKeyword':'KThis','StartArray':'KStartArray'}
KQ={'Text':'QText','End':'QEnd'}
KL={'Text':'LText','End':'LEnd','Pipe':'LPipe'}
KE={'End':'PEnd'}
TK={'Block':('TBlock',KB),'Parameters':('TParam',KP),'DoubleQuoteString':('TDouble',KQ),'SingleQuoteString':('TSingle',KQ),'Array':('TArray',KQ),'Link':('TLink',KL),'RawComment':('TRawComment',KE),'RawStatement':('TRawStatement',KE),'Comment':('TComment',KE)}
t=open('/repo/tests/lexer.rs').read()
for m in re.finditer(r'#\[test\]\s*fn (\w+)\(\)[^{]*\{(.*?)\n\}\n', t, re.S):
    name, body = m.groups()
    v = re.search(r'let value = (r#".*?"#|".*?");', body, re.S).group(1)
    v = v[3:-2] if v.startswith('r#') else v[1:-1].replace('\\\\','\\')
    toks = re.findall(r'Token::(\w+)\(\w+::(\w+), (\d+)\.\.(\d+)\)', body)
    l = '; '.join('Tok (%s %s) %s %s' % (TK[a][0], TK[a][1][b], c, d) for a,b,c,d in toks)
    skipped = [x for x in skipped if x != 'lexer::'+name]
    out.append('(** tests/lexer.rs %s *)\nExample t_%s : collect (%s) true = Some [%s].\nProof. vm_compute. reflexivity. Qed.\n' % (name, name, cs(v), l))
# syntax errors
t=open('/repo/tests/syntax_error.rs').read()
for m in re.finditer(r'#\[test\]\s*fn (\w+)\(\)[^{]*\{(.*?)\n\}\n', t, re.S):
    name, body = m.groups()
    v = rs(re.search(r'let value\s*=\s*(r#".*?"#|r".*?");', body, re.S).group(1))
    pos = re.search(r'SourcePos\((\d+), (\d+)\)', body).groups()
    k = re.search(r'SyntaxError::(\w+)\(', body).group(1)
    skipped = [x for x in skipped if x != 'syntax_error::'+name]
    out.append('(** tests/syntax_error.rs %s *)\nExample t_%s : syn (%s) = Some (S%s, err_info (fun _ => 1) (lit "t") (%s) %s %s []).\nProof. vm_compute. reflexivity. Qed.\n' % (name, name, cs(v), k, cs(v), *pos))
print('\n'.join(out))
print('skipped:', *skipped, sep='\n  ', file=sys.stderr)
