# A Rocq model of go-pass

Tool: Coq 8.16.1. Sources in `rocq/theories/` (logical name `Verif`). The Go code in `/repo` is read, never run.

## Layout

| area | model | spec (vocabulary of the statements) | proofs | theorems |
|---|---|---|---|---|
| Threefish cipher (`crypter/`) | `TfLang`, generated `TfCode256/512/1024`, `CrypterModel`, `CrypterContract`, `CrypterConc` | `TfSpec`, `CrypterSpec`, `Base64Spec` | `TfAlgebra`, `TfSym`, `TfConform`, `TfProofs`, `CrypterProofs*`, `CrypterConcProofs` | `CrypterProps`, `CryptorProps`, `CrypterConcProps` |
| password generator (`password/`, `cmds/generate.go`) | `PasswordModel`, `PasswordInt`, `PasswordConc`, `FormModel`, `GenModel` | `PasswordSpec`, `FormSpec` | `PasswordProofs`, `PasswordCount`, `PasswordUniform*`, `PasswordConcProofs`, `PasswordProb`, `FormProb` | `PasswordProps*`, `PasswordConcProps`, `PasswordProbProps`, `FormProps`, `FormProbProps`, `GenProps` |
| GF(256), Reed-Solomon (`qrterminal/qrcode/gf256`) | `Gf256Model`, `EccConc` | `Gf256Spec` | `Gf2Poly`, `Gf256Proofs`, `RsAlgebra`, `RsProofs`, `EccConcProofs` | `Gf256Props`, `EccConcProps` |
| QR coding (`qrterminal/qrcode`, `coding`) | `QrModel`, `QrVtab` | `QrSpec` (a reader), `QrDamageSpec` | `QrBits`, `QrPlan`, `QrStatic*`, `QrDraw`, `QrInter`, `QrCheck`, `QrRead`, `QrDamage`, `QrLevels` | `QrProps`, `QrDamageProps` |
| terminal rendering (`qrterminal/`) | `TermModel` | `TermSpec` | - | `TermProps` |
| closest match (`closestmatch/`) | `CmModel`, `CmSave`, `CmAcc`, `CmConc` | `CmSpec` | `CmIndex`, `CmProofs`, `CmConcProofs` | `CmProps`, `CmSaveProps`, `CmAccProps*`, `CmConcProps` |
| store (`repo/`) and commands (`cmds/`) | `FsModel`, `FsWrite`, `RepoModel`, `CmdModel`, `LiveModel`, `ReadModel`, `InsertSteps` | `RepoSpec`, `CmdSpec`, `InsertSpec`, `ExactSpec`, `EnvSpec`, `PathSpec` | `FsProofs`, `RepoLines`, `RepoScan`, `CmdProofs`, `LiveProofs`, `LiveTree` | `RepoProps`, `CmdProps`, `CmdProps2`, `InsertProps`, `EnvProps`, `PathProps`, `TrimProps`, `SearchRootProps`, `ExactProps`, `LiveProps`, `ReadProps`, `InsertStepsProps`, `InsertInsideProps` |
| clipboard | `ClipModel` | `ClipSpec` | - | `ClipProps`, `ClipProps2` |
| glob | `GlobLex`, `GlobLexer`, `GlobParse`, `GlobCompile`, `GlobMatch`, `GlobUtil`, `GlobSearch`, `GlobMem`, `GlobTool`, `GlobDraw` | `GlobSpec`, `GlobFragment`, `GlobTextSpec`, `GlobGramSpec`, `GlobIndexSpec`, `GlobLenSpec`, `GlobDrawSpec`, `GlobSafeSpec`, `GlobMemSpec`, `GlobNestSpec`, `GlobLawsSpec`, `GlobErrSpec`, `GlobSizeSpec` | `GlobLexerProofs`, `GlobErr`, `GlobSize`, `GlobSizeProps`, `GlobIndex`, `GlobIndex2`, `GlobLen`, `GlobSafe`, `GlobMemLogic`, `GlobMemSlices`, `GlobMemRefine`, `GlobGram`, `GlobFactor`, `GlobSem`, `GlobGlue`, `GlobLeaf`, `GlobSeq`, `GlobAlt`, `GlobShare`, `GlobNest`, `GlobText` | `GlobProps1-5`, `GlobIndexProps`, `GlobLenProps`, `GlobSafeProps`, `GlobMemProps`, `GlobTimeProps`, `GlobNestProps`, `GlobBytesProps`, `GlobUtilProps*`, `GlobSearchProps`, `GlobToolProps`, `GlobErrProps` |
| Go strings | `GoStr`, `Utf8` | | | |

(all `.v` under `rocq/theories/`.)  `...Props.v` files contain the property theorems, each followed by `Print Assumptions`, and the
non-vacuity examples. `tools/gen_tf.py` transcribes the unrolled cipher; the other `tools/` only produce the JSON files, the
test tables and run the mutation batches (`seeded/`).

Checks of the model against the code (not proofs; no claim rests on them): `GlobTests.v` (written by `tools/gen_globtests.py`) holds
every row of every table in glob's own unit tests (240 rows of 33 tables: matching, lexing, parsing, compiling, `Index`), `CrypterTests.v`
(by `tools/gen_crypttests.py`) the six Threefish vectors of `crypter_test.go`, run on the transcribed code and on `TfSpec`, and `UnitTests.v`
the vectors of the `gf256`, `coding` and `password` tests. The model gives the expected result on all of them.

## Plan per property

* C01, C02 - The unrolled Go bodies are transcribed by `tools/gen_tf.py` into a list of statements of a tiny
  expression language (one Coq item per Go line, in order); an interpreter gives them uint64 wrap-around
  semantics. `TfSpec.v` is Threefish written from the Skein paper (loops, tables). Proof: symbolic execution
  of each 4-round chunk on a normal form, reflected soundly; then the spec's own algebra (MIX and key injection
  are invertible) gives both round trips for all words.
* C03, C04, C05, C06 - Cipher object as a record plus step functions; memory as one byte list with two
  windows, so overlap is covered. C06 is a refutation with the exact behaviour of the code.
* C07 - Cryptor modelled with base64 as a codec that is only assumed to decode what it encoded (explicit
  hypothesis) or modelled outright; refutation for all texts.
* C08-C12 - `io.Reader` = list of byte chunks, `rand.Int` modelled from the Go library source (mask and reject);
  running out of bytes is the reader's error. Proof by loop invariants; C11 by counting choice vectors.
* C13, C14 - carry-less arithmetic on Z/N; NewField returns None on panic. General ring laws by bit-level
  algebra, field laws from the tables the constructor itself checks.
* C15-C17 - polynomials as byte lists; synthetic-division invariant; distance by the Lagrange argument.
* C18-C23 - Bits as a bit-list refinement; Plan as a pixel matrix, all 40x4(x8) plans computed by `vm_compute`
  inside the kernel where the domain is finite; decoding theorems for all texts by induction.
* C49, C50 - corollaries of the same symbol analysis: function-module colours, Reed-Solomon distance per block.
* C51 - refutation: what At returns against the framed, scaled symbol.
* C24, C25 - output as list of glyphs, rasterised by an independent reader.
* C26 - worker pool as a labelled transition system (jobs queue, results queue, per-worker state), invariant on
  the multiset of pending work, measure for termination.
* C27-C30 - maps as association lists up to permutation; sort as "any sorted permutation".
* C31 - file system as a tree, Walk as recursion with SkipDir.
* C32, C33, C34 - bufio.Scanner modelled (buffer growth, 64 KiB limit) over arbitrary read chunking; refinement to the
  line splitter.
* C35-C40 - commands as functions from (store, env, args) to (outputs, store, env).
* C52 - show's line handler composed with the QR model (C18-C24). C53 - main's root choice and ExpandEnv composed with Scan.
* C41 - init as a decision function. C54 - the same process model. C55, C56 - Windows: read and write as programs over arbitrary
  system call results (traces); UTF-16 conversion.
* C42-C44 - lexer and parser on bytes with UTF-8 decoding, fuel bounded by input length and proved sufficient. C44 is an equivalence with a
  grammar (`GlobGramSpec`): from tokens to a step relation (inverting UTF-8 decoding), from steps to the grammar, and back by mutual induction.
* C45-C48 - matchers as a Coq inductive with Match/Index/Len; the documented meaning of a pattern is a separate inductive relation
  (`GlobFragment.v`); Index gives exactly the segment lengths, so that the compiled tree (BTree, Row, prefix/suffix glue) can be
  proved sound and complete matcher by matcher.
* C57 - the pool table: index arithmetic for all sizes.
* C59 - the JSON document as a tree with coerced strings, decoding as map insertion; two indexes whose lookups agree run the same schedules.
* C60 - the trial loop as a relation over all random numbers.
* C61 - induction over the history of inserts; the file system's frame property (C40) and well-formedness as invariants, composed with C36 and C38.
* C62 - the line reader of C32 with the compiled glob as handler (a panic in Match is an outcome), composed with C42 and C46.
* C63 - the score of C28 compared for the query equal to an entry (double counting of distinct pairs, a finite table for the rounding),
  then composed with C35, C38 and C61.
* C64 - Index computed on the characters of the string (positions of characters in the bytes, self-synchronisation of UTF-8), each
  matcher against its language (`GlobIndexSpec`), alternatives by merging sorted lists.
* C65 - an invariant of everything the glob compiler builds (the lengths kept in BTrees and Rows are those of their parts), then
  induction on the matcher.
* C66 - an inductive specification of references (`EnvSpec`), equivalent to the modelled os.Expand for every text and environment.
* C67 - lexical simplification as a rewriting relation on path elements (`PathSpec`): confluence (the stack algorithm is invariant
  under each rewriting), existence, idempotence; resolution in the tree is preserved by each rewriting; insert's target is a walk.
* C68 - every matcher answers if no member of a Row inside it has length 0 and no text after a star is looked for with non-ASCII
  separators; an invariant of gluing, minimising, compiling, optimising and factoring of groups (`GlobSafeSpec.safe`).
* C69 - Match and Index once more, as programs on a shared memory of int arrays and pools (`GlobMem`), run by interleaving single
  accesses; a logic of owned arrays (`GlobMemLogic.wp`), sound for any number of threads, in which each program is shown to return
  what the list model of `GlobMatch` returns (`GlobMemRefine`). Every slice of the package starts at the beginning of its array.
  Not modelled: reorderings of the Go memory model (there are no races), garbage collection.
* C70 - base64url from the RFC's definition on bits (`Base64Spec`), equal to the modelled encoder for every byte string; a Cryptor
  history is a cipher history without re-keying (C03, C04).
* C71 - the two mains from the values of the flags, as relations ending in one outcome; a comma list and the separator of a piece are
  specified by inductive definitions, the decoder is inverted on every byte string.
* C72 - graphviz_internal and the String methods over any random numbers, Fprintf with the text as its format; the DOT statements, the
  drawing of a tree and the reading of a graph are specified by inductive definitions (`GlobDrawSpec`); by induction over the drawing,
  with the invariant that every character of a compiled matcher is one of the pattern, the separators or the fixed texts (`GlobDrawClean`).
* C73 - a world of any number of searches (each with its own channels and workers, CmModel.step) and Adds sharing the index and the mutex; the
  critical section is one step at its Unlock. An invariant per search over all versions of the index since its call, mutual exclusion, a
  measure for termination; the mixtures are built as explicit runs. Not among the concurrent calls: Load, Save and the accuracy methods.
* C74 - filepath.Walk and the walk function as a relation over the answers of os.Stat, os.Lstat and directory reads at each moment, any function of
  time; by induction over the walk. `LiveModel` also has a tree with symbolic links and permissions and the kernel's path resolution (40 links);
  at rest the walk is shown deterministic and compared with `FsModel`. A directory is read in one step; `..` leads to the parent in the
  tree; permissions are two bits per directory, a stat needs none on the file.
* C75 - the scanner of C32 over arbitrary replies of os.File.Read; a run is also a run of the scanner of C32 that foresees what will be delivered,
  so C32 applies. The replies of a file that changes are a relation over its content at each moment. os.File.Read never answers 0 bytes
  without an end or an error, and never bytes with one.
* C76 - insert.go:18-37 as system calls of any number of processes (create, reads and writes of any size, any call failing) on the file system of C67; a crash is
  any reached state. One invariant over all reached states (positions, contents of the targets, everything else untouched), a measure for the number of steps, and
  runs for the refutations. The error of io.Copy is dropped by the code and by the model. A source is no target; a path means its file (nothing is renamed or removed
  meanwhile); what a crash does to data the kernel has not written to disk is not modelled.
* C77 - any number of calls on any number of ciphers; a step is one statement of the transcribed bodies (at most one access to a field of the cipher), one word loaded or
  stored by the byte methods, or one word written by a setter. An invariant over all reached states (which words the shared buffers may hold, how far the locals
  agree with a run on some block), using that every body reads its input first and writes its output last (checked on the bodies by computation); explicit schedules for the
  refutations. src and dst belong to their call and do not overlap; 64-bit words are read and written whole; no reordering by the compiler or the processor.
* C78 - the step model of C76 (`InsertSteps`, sources read live) without the condition that no source is a target; invariant: every byte in a buffer or a changed target comes, at its
  place, from a text that flows there along the jobs, which also bounds all lengths and hence the number of steps. No links: a name is a file.
* C79 - the memory model of C69 (`GlobMem`, one step per access to a segment list), counted: an evaluator for programs that use only the fixed one-element segments; the compiled tree of
  alternating texts and stars by induction over `compileMatchers`; an upper bound by induction over the tree, and the exact count for b*a*...a* by a recurrence that solves to 2^n - 1.
* C80 - a small-step model of ECC (`EccConc`): arrays, the two words of the slice header rs.p, one access at a time. Ownership invariant (nobody else can reach the array: `avoids`) and a prediction of the
  result from the array (`gives`) for calls with a buffer of their own; a bounded, in-range invariant (`stays`) when the buffer is long enough; the exchange is built for all data, crash and torn header by schedules run in Coq.
* C81 - a small-step model of Generate (`PasswordConc`): the reads of rand.Int through io.ReadFull, in pieces of any size, from a stream shared with other calls, and failing reads. Invariant of one call (`faithful`): whatever Generate would give from where the call is, it would have given from the start on all bytes received; it goes backwards over each step. Forwards, an execution of Generate that succeeds is a run of the call (`chunks`), deterministic byte by byte (`runs_det`). Exactly one stream for each tuple of byte strings: induction on the total number of moves left, the scheduler fixing who gets the next byte. The unsafe reader: two calls in lockstep, copying before either stores the offset.
* C82 - from C11 (equal numbers of streams) to the probability: from every point of a call that can be reached (small steps of `PasswordConc`, invariant `room`) some B bytes, B fixed, make it finish, so at most (256^B-1)^m streams of mB bytes do not; Bernoulli's inequality. The number of valid passwords: length of the list of choice sequences divided by the c! d! s! sequences for each password.
* C83 - form passwords: FormProb.v (`shows`: the form filled in; a password taken apart into kinds and woven together again with other characters), FormProbProps.v. Outcome counts: a bijection between the passwords printed as o1 and those printed as o2 keeps the kinds and replaces the characters; with C11 (each password on equally many streams) and C82 (almost all long streams suffice) this gives the probability. Refuted: --mixed with --unique ("xx"), and 'a' ("ax").
* C84 - errors of the glob parser: GlobLexer.v is the lexer with its fields (position, one rune of push-back, queue, recorded error) and the parser with its texts; GlobLexerProofs.v simulates it by GlobLex.v (`here`: the rest of the pattern at the position; `back`: what unread restores), with the text left at the item where it gives up; GlobErr.v: equivalence with `refused` of GlobErrSpec.v, forwards by running past good terms (mutual induction on the grammar of C44), backwards by cutting the pattern where the parser stops.
* C85 - size of compiled globs: GlobSizeSpec.v defines `size` and `depth` of a matcher; GlobSize.v gives syntax trees a weight that factoring (minimizeTreeAnyOf) never raises, shows that optimizing, gluing and splitting never raise the sum of (size + 2), and bounds the weight of a parsed tree by its pattern with the parser's stack as potential; GlobSizeProps.v.
* C86 - distance of pictures: QrDamageSpec.v counts changed modules; QrDamage.v shows that reading (placement, masking, bytes, de-interleaving) turns k changed modules into at most k changed codewords over all blocks, and combines this with the distance of Reed-Solomon codewords (C16), the reader's result (C23) and C50; QrLevels.v adds the distance of the format words; QrDamageProps.v.
* C87 - laws for rewriting patterns: GlobLawsSpec.v says how a pattern with braces is spelled out (join: texts that become neighbours are one text) and when that puts no two stars side by side; GlobLaws.v shows that the spelled-out pattern is written as the grammar says (C44) and that its meaning is that of the braces, and that meanings grow when separators go; GlobLawsProps.v gets the answers of the compiled globs from C46.
* C58 - generate as a relation over random source, operating system and clipboard behaviour; composes C37, C54, C55.

## Trusted base

* Coq 8.16.1's kernel, including its bytecode VM (`vm_compute` is used for the finite QR plans and the cipher); `coqc` compiles, `coqchk`
  re-checks.
* `Print Assumptions` follows every theorem: each prints "Closed under the global context", that is, no axiom at all, not even from the
  standard library. Only the standard library is imported.
* The transcription of Go into Gallina: each definition cites file and lines; the simplifications are in those comments.
* The models of what the code calls: Go integers (Z with explicit wrap-around where the code can overflow), strings as byte lists, UTF-8
  decoding and encoding (`Utf8.v`), `strings`/`bytes`/`unicode` functions used (`GoStr.v`; case mapping only where stated),
  `crypto/rand.Int`, `bufio.Scanner`, `filepath.Walk` and path functions over a tree file system (without links and at rest, except in C74), `sort.Sort` as any sorted permutation,
  `regexp`-free; `exec.Cmd` and Win32 calls as arbitrary outcomes.

Not modelled: command line parsing by kong (the commands start from the parsed structures), the flag package and the benchmark lines of `glob/cmd`, the `String` methods
of `glob/syntax` (used in tests only), tests and benchmarks, `readme` examples, terminal detection beyond what TermModel
states, timing, memory exhaustion.
