#!/usr/bin/env python3
"""Writes rocq/theories/AbnfText.v from /repo/systemtests/uri.abnf."""
t=open('/repo/systemtests/uri.abnf').read()
h='''(* systemtests/uri.abnf, lines 1-%d: the whole file, byte for byte (a quotation mark is written twice in a Coq string); and
   the core rules of RFC 5234, appendix B.1, that it refers to, as they are written there. *)
From Verif Require Import Base.
Definition uri_abnf : string := "''' % t.count('\n')
core='''ALPHA          =  %x41-5A / %x61-7A   ; A-Z / a-z
DIGIT          =  %x30-39
                       ; 0-9
HEXDIG         =  DIGIT / "A" / "B" / "C" / "D" / "E" / "F"
'''
open('/verif/rocq/theories/AbnfText.v','w').write(h+t.replace('"','""')+'".\nDefinition core_abnf : string := "'+core.replace('"','""')+'".\n')
