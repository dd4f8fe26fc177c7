
Every property on the list could be expressed in the model.

## 4. Trusted base

* Coq's kernel, including the VM used for `vm_compute` in Examples and refutations.
* `Print Assumptions` prints `Closed under the global context` for every property theorem: no axiom is used, not even of the
  standard library. (Loading Coq's own `ssreflect` plugin library brings the seven sealed module parameters
  `Coq.ssr.ssrunder.Under_rel.*` into the environment, which vcheck lists as library axioms; no theorem here depends on them.)
* The reading of the Rust code: each model definition cites its file and lines. Snapshots.v checks the model against all
  recorded outputs in the repository.
* Third-party code is modelled from its documented behaviour: rowan 0.12 (GreenNodeBuilder, traversal, covering_element,
  child_at_range, replace_with), text-size (u32, checked), indexmap, FxHashMap (order never observed, or any order allowed),
  crossbeam channels (unbounded, FIFO), rayon `install` (returns when the task is done, so tasks run one at a time),
  lsp-server 0.5 (ReqQueue, extract), salsa (queries are the functions they memoize, inputs are cells), walkdir (any list of
  entries at each moment), std::path.

## 5. Wrong programs

/verif/seeded/LOG.jsonl records the edits of the model that were tried, the claim each breaks and the theorems that failed.
tools/mut.py is the runner: it applies one edit in a scratch copy, rebuilds everything that still compiles, and lists the
lemmas and theorems that no longer do (a theorem also counts as failed if its proof uses a failed lemma).
