# Design

A Rocq (Coq 8.16.1) model of google-research/t5x at the commit in /repo, and
proofs of the properties listed in `properties.jsonl`. (This file is written by
`tools/mkdesign.py` from `tools/design_head.md`, `tools/design_tail.md` and the
comments of the model files.)

## Approach

* The model is a set of total Gallina functions and transition relations that
  mirror the Python functions branch by branch. Exceptions are values
  (`option`, `sum`, or a constructor). Every definition cites the file and
  lines it models and says where it simplifies.
* Loops without a syntactic bound are given fuel and a theorem that the fuel is
  sufficient, or are modelled as step relations. Threads, hosts and crashes are
  step relations whose reachable states are all interleavings and all crash
  points.
* What the code is generic in (models, arithmetic on floats, datasets, regular
  expressions, user callbacks) is a parameter of the definitions; a law of it is
  a hypothesis of the theorem that needs it, never an axiom. Where a law is
  assumed of floating point numbers that does not hold of them (associativity),
  the theorem says so; many theorems use no law, or only the order.
* Models, specifications and proofs are kept apart: `XModel.v` (code),
  `XSpec.v` or the head of `XProps.v` (a small independent statement),
  `XProofs*.v` (lemmas), `XProps.v` (the theorems named in MANIFEST.json, each
  with a case that meets its hypotheses).
* When the documented behaviour is false of the code, the property is stated
  as what the code does, with a `_refuted` theorem giving a witness.
* `seeded/LOG.jsonl` records deliberate errors put into scratch copies of the
  models: which theorems failed, and which were tightened because none did.

