# Formal model of paulocsanz/arraystring in Rocq (Coq 8.16.1)

`properties.jsonl` lists the properties, `MANIFEST.json` says which theorems prove them, `seeded/LOG.jsonl` records
wrong programs tried against the theorems, `seeded/AUTO.jsonl` those generated mechanically.

## 1. Layout (rocq/theories)

| files | content |
|---|---|
| `Base.v`, `Char.v` | outcomes (`Ret`, `Panic`, `UB`, `Diverge`), state monad, machine arithmetic, build configuration; Rust's `char` |
| `Spec.v`, `TextOps.v`, `IterSpec.v`, `SpecOps.v`, `SpecFmt.v`, `SpecFit.v`, `StringSpec.v` | the *independent* specification on texts (`list char`): encodings, boundaries, longest fitting prefix, trim, what each call does to a text, iterators seen from outside, `Debug` texts, `std::string::String`. None imports the model of the crate (only the error types of `ModelError.v` and the std vocabulary of `RustStd.v`/`RustFmt.v`) |
| `RustStd.v`, `RustFmt.v`, `RustFmtBeside.v`, `RustIter.v`, `RustOrd.v` | model of the parts of Rust's core library (and serde's visitor protocol) that the crate calls |
| `ModelError.v`, `Model.v`, `ModelArgs.v`, `ModelImpl.v`, `ModelDrain.v`, `ModelCache.v`, `ModelIntegration.v`, `Layout.v` | the crate, function by function, each definition citing file and lines |
| `ModelOps.v`, `ModelCacheOps.v` | dispatchers that run the calls listed in `SpecOps.v` on the model; `reachable` |
| `Obs.v`, `ObsCache.v` | what a caller can observe: `shows c s t` = the value `s` has the types' shape and `as_str()` returns the UTF-8 of `t` |
| `*Facts.v` | lemmas |
| `Claims*.v` | one self-contained lemma per claim, with its proof |
| `RustJson.v`, `SpecJson.v` | serde_json's `to_string`/`from_str` on strings; JSON strings as texts |
| `Borrows.v`, `ModelBorrows.v`, `ModelBorrowOps.v`, `ModelBorrowMake.v`, `ModelBorrowRead.v` | the Stacked Borrows machine; the methods with every reborrow and access, and the calls of `op` on it; constructors, `Drain` and `CacheString`; the traits that only read |
| `ObsBorrows.v`, `BorrowFacts.v`, `BorrowRuns.v`, `BorrowOps.v`, `BorrowMake.v` | which reference may use the string; facts about the machine; the runs of those functions |
| `SpecProg.v`, `ModelProg.v`, `ObsProg.v` | programs over several strings and draining iterators, on texts and on the model; what their variables show |
| `ModelLogs.v`, `ModelLogsRest.v`, `ObsLogs.v`, `ObsLogLines.v` | the crate with feature `logs`: every `trace!`/`debug!` calls a stateful logger that may panic; what a panic may leave behind; what is logged |
| `ObsLogWhy.v`, `LogWhy.v` | which checks in the log were refused, and that they explain the errors |
| `ObsLogStory.v`, `LogStory.v` | the messages of every call in full, without "Len" and "As str" |
| `ModelLogsProg.v`, `ObsLogProg.v` | the programs of C70 with a logger that all their variables share |
| `ObsLogProgLines.v` | what each command of such a program tells the logger (C79) |
| `ModelLogPrint.v`, `ObsLogText.v`, `LogText.v`, `CasesLogText.v` | the texts of the messages and a logger that prints them with core::fmt; which messages can be shown; that messages are about the string before the call; cases |
| `RustMap.v`, `SpecMap.v`, `ObsMap.v` | std's `HashMap` and `BTreeMap` by the calls they make of their keys; maps from texts; which calls and entries correspond |
| `RustConv.v`, `BenchSuite.v` | core's blanket conversions, `to_string` and `catch_unwind`; the conditions and pushes of benches/string.rs |
| `TestSuite.v` | the closures of tests/string_parity.rs, written on the model and on `StringSpec.v` |
| `Cases.v`, `CasesBorrows.v`, `CasesLogs.v`, `DocExamples.v`, `StdExamples.v` | concrete values and a tactic for closed goals; the assertions of the crate's documentation examples, run on the model; the same for the examples in the documentation of the core library, with misuse of its unsafe functions |
| `Prop*.v` | the property theorems (`C05_...`), statements only, each followed by `Print Assumptions` and a concrete case. `PropRefuted.v`: witnesses where the crate departs from its documentation or from std |

## 2. Trusted base

* Coq 8.16.1's kernel (with its `vm_compute` machine, used in the concrete cases).
* `Print Assumptions` reports "Closed under the global context" for every theorem of `Prop*.v`: no axioms, not even
  from the standard library. (Loading parts of the standard library puts the `Under_rel` axioms of `Coq.ssr.ssrunder`
  into the environment; no theorem uses them.)
* That the model below describes the code. Nothing was compiled or run: /repo was read as text.
* That `RustStd.v`, `RustFmt.v`, `RustFmtBeside.v`, `RustIter.v`, `RustOrd.v` and `RustConv.v` describe Rust's core library: char, str,
  slices, ptr, fmt, hash, RangeBounds, the blanket impls of From, TryFrom and ToString, `catch_unwind`, the provided
  methods of Iterator, PartialEq, PartialOrd and Ord, and serde's `&str`/`String` visitors.
* That `RustMap.v` describes what std's maps ask of their keys (for C72 only: how the table or tree is laid out is left
  out), `Layout.v` the layout rules of the Rust reference, and `Borrows.v` (a strict version of) the Stacked Borrows
  rules.
* That `RustJson.v` describes the string part of serde_json (for C63 only; written from its documented behaviour, as
  its source is not in the sandbox).

### Modelled

* `src/arraystring.rs` and `src/utils.rs`: every method and every helper, with their `unsafe` operations as checks
  that give `UB`.
* `src/implementations.rs`: all trait implementations. `Debug` uses core's builders, `{:?}` and `{:#?}`; how `str` and
  `u8` print themselves is a parameter.
* `src/drain.rs`, `src/error.rs`, `src/lib.rs` (`CacheString`, the type aliases), `src/integration.rs` (serde, diesel).

### Not modelled

* The FFI crate (`ffi/src/lib.rs`): it does not parse (`use arraystring::{..., 63}`) and calls functions that do not exist.
* The `no-panic` link trick. Of feature `logs`: the crate `log` itself (a message goes to one logger or nowhere).
* Of the tests and benchmarks, everything but the closures and strings of `tests/string_parity.rs` (`TestSuite.v`), and the conditions and measured
  pushes of `benches/string.rs` (`BenchSuite.v`).
* The compiler: code generation, actual layout, heap and timing. Aliasing is modelled for the calls of `op`,
  the constructors, `Drain` and `CacheString` (`ModelBorrows.v`, `ModelBorrowOps.v`, `ModelBorrowMake.v`), and for
  `Hash`, comparisons, `Debug`, `Serialize` and `ToSql` (`ModelBorrowRead.v`), not for what `serde` and `diesel` do
  themselves. Two-phase borrows are taken when the call
  starts.
* Threads: `ArrayString` has no interior mutability, so `&mut` excludes concurrent access.

## 3. How the code is modelled

* A value of `ArrayString<N>` is a record `{arr : list N; size : N}`: the backing array of exactly `N` bytes and the `u8` length.
* `&mut self` methods are state transformers `astring -> outcome A * astring`. `Result`/`Option` are data. The state is
  returned in every outcome, so "unchanged on error" and "unchanged on panic" are statements about the model, not conventions.
* Outcomes: `Ret a`; `Panic`; `UB` (unsafe code breaks its contract: pointer past the allocation, `get_unchecked` out of
  range or off a char boundary, `from_utf8_unchecked` on invalid bytes, `from_u32_unchecked` on a non-scalar,
  reading past the end in the unchecked decoder); `Diverge` (a loop ran out of fuel).
* Configuration `cfg`: `usize_max` (any value >= 65535), `debug` (overflow checks and debug assertions on, or wrapping
  arithmetic and no assertions) and `cap` (the const generic, 1..=255). All theorems quantify over it.
* Pointers into the array are offsets; `ptr::copy` is memmove and `copy_nonoverlapping` copies from a separate
  allocation (the borrow checker guarantees `with` does not alias `*self`). Both are bounds-checked, giving `UB`.
* `while`/`for` loops are fuelled; running out gives `Diverge`, which the theorems exclude. For loops over characters
  the fuel is fixed at `capacity + 2` turns (`char_fuel`) and shown to be enough for every iterator; for string
  iterators (where empty items are possible) any fuel above the number of items.
* Iterators are arbitrary state machines `S -> outcome (option A) * S`, so they may be infinite, stateful or panic.
* `impl AsRef<str>`, `impl AsRef<[u16]>` and `impl RangeBounds` are modelled by their answers in `Model.v` (two answers per
  item in `from_iterator_truncate`, which asks twice). `ModelArgs.v` runs them as foreign code with state, at the
  places where the methods call it, and C57 proves that the answers are all that matters.
* `char` is a type of Unicode scalar values; every `&str` argument is the UTF-8 encoding of a `list char`
  (`Utf8Facts.v` proves that core's validator accepts exactly these byte strings).

## 4. Proof structure

* C05-C28: one lemma per method (success and every error exit), from a single characterisation of `replace_range`
  and of `is_char_boundary` on encoded texts (`CoreFacts.v`, `MethodFacts.v`, `IterFacts.v`, `Utf16Facts.v`).
* C01-C04, C47: `OpsFacts.v` proves a lock-step theorem: every call run on a value showing `t` returns what `t_op`
  says and leaves a value showing the text `t_op` says. Reachability is an induction on top of it. `t_op` mentions
  neither `debug` nor left-over bytes, hence C03 and C47.
* C29-C38, C52: `ImplFacts.v`, `OrderFacts.v` (byte order of UTF-8 = scalar value order, from the encoding table), `DrainFacts.v`, `FmtFacts.v`.
* C39: the wrapper's functions are modelled separately and proved equal.
* C40, C41: serde/diesel at their trait boundary: a deserializer is the visitor call it makes; the SQL backend is an
  arbitrary codec for `str`, whose pointers may be null or dangling.
* C53-C56, C59: consequences of the method theorems; `agree` (`Obs.v`) relates two calls by result and text left.
* C58: from C30/C31 by one generic argument for the three types. C60: C43 at both capacities.
* C43: an independent model of `String` and a simulation over histories. C61: each test of the project against the same model.
* C62: the functions run beside their models on a machine with a borrow stack per byte. `shape` says which permissions a
  stack still has; reads and writes keep it, new references extend it, unprotected entries can be forgotten.
  `track` holds above any permissions, so methods can be nested; `hands` is for references that outlive a call.
* C63: the documents are texts (`from_str` takes a `&str`). `json_doc` describes those without escapes, `json_char` the
  escapes written. serde_json lends a slice of the document only if it has no escape, and the crate's `Deserialize` asks
  for a lent `&str`: hence the exact condition, and `C63_escapes_refuted`. `json_string d t e` describes all JSON
  strings (short escapes, `\u` numbers, surrogate pairs); `parse_body` and `parse_inv` show the parser reads exactly these.
* C64, C66: corollaries of the `longest_fit` claims in the caller's terms (unused bytes; order). C65: from C04 and C01 by
  induction over histories; equality of the final values byte by byte.
* C67-C69: consequences of the claims about the single calls, for pairs of calls, for two configurations at once, and for
  the tests inside the crate.
* C70: the lock-step theorem lifted to lists of variables of different capacities. The text of one variable is read by
  `as_str` and handed to the method of another. A command is rejected (`None`) where the compiler would: wrong types, or
  the same variable as receiver and argument.
* C71: each function with logs is shown to simulate the one without: same effect, or a panic of the logger in a state
  where some invariant `K` holds. The only place where the string is between two states is the last `len()` of
  `replace_range`; `torn s s'` (bytes of `s'`, length of `s`) names what is left there. `as_ref` arguments, iterators and
  closures answer in the same state as the logger or have their own; messages are passed as arguments, formatting them is
  part of the logger's effect. A message whose level is off is not sent, so the hypotheses speak of enabled messages only.
  `ClaimsLogArgs.v` adds foreign string arguments: calls made only for a message are skipped, and the rest runs with one
  of the answers.
* C72: one simulation per kind of map for any key type whose `hash`, `eq`, `cmp` and `borrow` depend on a text only, used for
  both string types (`ClaimsMap.v`).
* C73: core's blanket impls applied to the crate's `From<&str>`, `FromStr` and `Display`; the benchmarks are written for any
  string type (`BenchSuite.v`).
* C74: `ObsLogLines.v` says on texts which debug messages a call sends. It uses the `event`s of the model and, for lengths of
  iterations and results that decide what comes next, the text operations of `SpecOps.v`. `LogLines.v` proves per function
  that the log grows by these. Trace messages: here only that none is sent when off, and the first of a call; see C77.
* C75: the logger of C71 gets any message, also about a string without a text, which no printing logger survives. `about`,
  `legible` say what messages the crate really sends; `LogText.v` shows by one relation (`twin`) that two loggers which
  agree on messages about `s0` agree on a call on `s0`, so C71 applies to the logger with other messages ignored.
  A printing logger is a solution of `prints` (its `log` calls itself through `Display`/`Debug` of `self`);
  `C75_nesting`: there is exactly one, reached after two unfoldings.
* C76: `refused` reads off a message whether the check it announces fails, with `boundary` of `Spec.v`. `LogWhy.v` has one
  judgement (`J`: the messages added explain the outcome) with a rule per combinator; that errors without a check are
  unreachable (`ok_or` in `remove`, a `Utf8` error of a push) comes from the results of C74.
* C77: `story` gives the messages of a call on texts; `checks` goes through the checks up to the first that fails.
  `LogStory.v` follows `LogLines.v` function by function with all messages but "Len" and "As str": those depend on the
  debug assertions and on how often the code looks at the string.
* C78: a draining iterator logs while it is read, so `l_for_loop` hands the logger's state to the iterator and to the
  body in turn. Each command is shown to do what it does without logs, or to panic and leave a stated state; the claims
  for loggers that return follow, since those cannot take the second way.
* C79: the judgements of C74 and C77 applied command by command (`ClaimsLogProgLines.v`, `ClaimsLogProgStory.v`). New is
  the loop over an iterator that logs itself, whose messages `take_lines` and `take_story` give by recursion on its text.
  `ClaimsLogProgState.v` runs a program beside two loggers as C75 does a call.

## 5. Departures from the documentation found

Proved in `PropRefuted.v`: an unpaired surrogate behind the cut of `from_utf16_truncate` goes unreported;
`try_insert_str` of an empty text and `insert_str_truncate` without room accept a position inside a character;
`replace_range` of an empty range by an empty text accepts any position; `Display` ignores width and precision;
indexing by an exhausted `RangeInclusive` is not empty; deserializing owned input fails,
hence reading back JSON that needed an escape; `SmallString` is one byte
larger than `String`; hence the histories excluded from C43.
`FromSql` for `*const str` is a safe trait, so nothing stops a backend from returning a null pointer, which `from_sql`
dereferences in release builds (`C41_pointer_refuted`).
With feature `logs`, a logger that panics on the last `len` message of an edit and is caught leaves a string whose bytes
need not be UTF-8, so safe code reaches undefined behaviour (`C71_torn_refuted`).
A logger that holds a lock while it prints a message runs into itself when the message shows `self`, as `trim` at level
trace does (`C75_lock_refuted`).
