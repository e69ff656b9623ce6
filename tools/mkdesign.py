"""Writes DESIGN.md from its fixed parts, the model files and the properties."""
import glob
import json
import os
import re

ROOT = os.path.dirname(os.path.dirname(os.path.abspath(__file__)))
TH = os.path.join(ROOT, 'rocq', 'theories')


def text(comment):
  return ' '.join(comment.lstrip('* ').split()).replace('|', '\\|')


def head(path):
  m = re.match(r'\s*\(\*\*?(.*?)\*\)', open(path).read(), re.S)
  return text(m.group(1)) if m else ''


def theorems():
  """(name, file, comment before it) of every registered theorem."""
  for path in sorted(glob.glob(os.path.join(TH, '*.v'))):
    src = open(path).read()
    for m in re.finditer(r'^(?:Theorem|Corollary)\s+(C\d+_\w*)', src, re.M):
      before = src[:m.start()].rstrip()
      c = ''
      if before.endswith('*)'):
        i = before.rfind('(**')
        if i >= 0 and '*)' not in before[i:-2]:
          c = text(before[i + 3:-2])
      yield m.group(1), os.path.basename(path), c


def main():
  parts = open(os.path.join(ROOT, 'tools', 'design_head.md')).read()
  out = [parts]
  out.append('## What is modelled\n\nThe head of each model file, which says what it covers and what it leaves\nout. Every definition in it cites the lines it models.\n')
  for path in sorted(glob.glob(os.path.join(TH, '*Model.v'))):
    out.append('* `%s`: %s' % (os.path.basename(path), head(path)))
  out.append('')
  ths = list(theorems())
  props = [json.loads(l) for l in open(os.path.join(ROOT, 'properties.jsonl')) if l.strip()]
  out.append('## Properties and where they are proved\n\n| Property | Files | Theorems |\n|---|---|---|')
  for p in props:
    mine = [t for t in ths if t[0].startswith(p['id'] + '_')]
    files = []
    for t in mine:
      if t[1] not in files:
        files.append(t[1])
    out.append('| %s %s | %s | %d |' % (p['id'], text(p['title']), ', '.join(files), len(mine)))
  out.append('')
  out.append('## Findings\n\nClaims one might expect of the code that are false of it, each with a theorem\ngiving a witness. The property is then stated as what the code does.\n')
  for name, _, c in sorted(ths):
    if 'refuted' in name:
      out.append('* `%s`: %s' % (name, c or '(see the file)'))
  out.append('')
  out.append(open(os.path.join(ROOT, 'tools', 'design_tail.md')).read())
  open(os.path.join(ROOT, 'DESIGN.md'), 'w').write('\n'.join(out))


if __name__ == '__main__':
  main()
