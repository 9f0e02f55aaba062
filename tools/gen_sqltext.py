#!/usr/bin/env python3
"""Regenerates rocq/theories/SqlText.v: copies the SQL texts of /repo's driver verbatim.
Usage: python3 tools/gen_sqltext.py > rocq/theories/SqlText.v   (from /verif)"""
import re
P='/repo/pkg/backend/sqlite/driver.go'
src=open(P).read()
line=lambda pos: src.count('\n',0,pos)+1
out=['''(** The texts of the SQL statements of pkg/backend/sqlite/driver.go, copied character by
    character by tools/gen_sqltext.py (do not edit by hand). *)
From Coq Require Import String.
Open Scope string_scope.
''']
names=['revSQL','listSQL','listSqlV1_0','revisionIntervalSQL','countRevisionSQL','countRevisionSQLV1_0',
 'afterSQLPrefix','afterSQL','ttlSQL','deleteRevSQL','updateCompactSQL','deleteSQL','createSQL','updateSQL','getSizeSQL']
def emit(name,a,b,txt):
    assert '"' not in txt
    out.append('(** %s, pkg/backend/sqlite/driver.go:%d-%d *)\nDefinition %s : string := "%s".\n'%(name,a,b,name,txt))
for n in names:
    m=re.search(r'^\t%s\s*=\s*`([^`]*)`'%n,src,re.M)
    emit(n,line(m.start()),line(m.end()),m.group(1))
ms=list(re.finditer(r'tx\.ExecContext\(ctx, `([^`]*)`',src))
assert len(ms)==2
for n,m in zip(['compactSupersededSQL','compactTombstonesSQL'],ms):
    out.append('(** Literal argument of tx.ExecContext in tryCompact, pkg/backend/sqlite/driver.go:%d-%d *)\nDefinition %s : string := "%s".\n'%(line(m.start()),line(m.end()),n,m.group(1)))
m=re.search(r'fmt\.Sprintf\("%s( LIMIT \?)", sql\)',src)
l1=line(m.start()); l2=line([x for x in re.finditer(r'fmt\.Sprintf\("%s( LIMIT \?)", sql\)',src)][1].start())
out.append('(** fmt.Sprintf("%%s LIMIT ?", sql), pkg/backend/sqlite/driver.go:%d and %d *)\nDefinition with_limit (sql : string) : string := (sql ++ "%s").\n'%(l1,l2,m.group(1)))
print('\n'.join(out),end='')
