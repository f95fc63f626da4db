# Formal model of ab-vm/ab in Rocq (Coq 8.16.1)

## Approach

* `rocq/theories/<Area>Model.v` — executable Gallina transcription of the C++ code, function by
  function. Every definition cites the file and lines in /repo it models and says what was simplified.
  No proofs live there.
* `rocq/theories/<Area>Spec.v` (or the head of `<Area>Props.v`) — small, model-independent specification.
* `rocq/theories/<Area>Proofs.v` — lemmas.
* `rocq/theories/<Area>Props.v` — the property theorems only, each closed by `exact`, each followed by
  `Print Assumptions`, plus `Example`s showing that the hypotheses are met by concrete non-trivial cases.

C++ behaviour is modelled with an explicit outcome type (`Outcome.v`):
`Ok v | Throw e | Trap | UB u` — a normal result, a C++ exception, an `AB_ASSERT` abort
(`Assert.hpp`: always on, traps), or undefined behaviour. `UB` is never hidden: a theorem that says
`= Ok _` also says that no undefined behaviour happens. Machine words are `N`/`Z` with explicit
`mod 2^w`. Loops whose termination is not structural are run on explicit fuel with a distinct
out-of-fuel result, and theorems exclude or characterise it.

Where the code violates the English property, the strongest true part is proved as `…_partial` and the
violation is proved as `…_refuted` (an existential with a concrete witness, computed by `vm_compute`).

A property that the code violates keeps its id and statement; its theorems are the exact violation
(`_refuted`: for as large a class of inputs as could be characterised, not just one witness, wherever
that was possible) and the strongest true part (`_partial`). Many such properties are the negative half
of a positive one that is proved in full; the pairs are named in the notes of `MANIFEST.json`.

## Plan per property

| Id | What is modelled | How it is proved |
|----|------------------|------------------|
| C01–C03 | `append_varuint`, `Decoder::read`, `read_varu` over a byte list + position (`VarInt*`) | induction on the number of 7-bit groups; spec is the LEB128 sum (`LebSpec`) |
| C04 | `read_vari` with C++17 shift rules as UB | exact characterisation, both halves |
| C05, C43, C44 | `ReaderInput`, `leb128`, `uleb128` on a byte stream with EOF semantics (`Stream*`) | induction on groups; refutations for 10-byte, over-long, truncated numbers |
| C06, C46–C48 | `ByteBuffer` over an abstract heap of allocations with an arbitrary failure limit (`ByteBuffer*`) | refinement to `list byte`, invariant over all client programs; refutation for shrink-to-zero, self-append, unchecked access |
| C07–C09, C45, C49–C51 | `ModuleNode::accept`, `CodeWriter`, `ModuleWriter`, `Decoder`, `decode_*_section`, `compile` (`Codec*`) | writer/compiler inversion by induction; totality; equivalence with a declarative grammar of files |
| C10–C14, C53 | byte-addressed stack memory, `enter/leave_native_frame`, `do_interpret`, `ab_act`, `static_call` (`Interp*`) | small-step semantics; simulation against a register-file machine; frame conditions on memory |
| C15–C16 | `nth_slot_index`, `types_match`, `set/get_stack_elements` (`Interp*`) | induction on type lists |
| C17, C36, C37, C54 | `FuncType::operator==`, `hash`, `mix`, `SizeP2` (`Hash*`) | xor-shift and odd multiplication are invertible mod 2^64; arithmetic |
| C18, C55–C59 | `LinearMemory`, `Page` with a page protection map (`Mem*`) | invariant over histories, all placements and failures POSIX allows |
| C19, C60, C61 | `IntrusiveList` in a pointer heap, `Context` life cycle with the interpreter's stack (`IList*`) | representation predicate, refinement to `list` |
| C20–C22, C39 | `LabelTable`, `SymbolTable`, `LineInfo`, `ModuleStorage` (`Tables*`) | invariants over histories; spec of LineInfo counts newlines |
| C23, C24, C62–C64 | `node_eq`, `node_hash`, `NodeMap` on an inductive node type, map order a parameter (`Ir*`) | mutual induction; equivalence-relation and finite-map laws |
| C25–C27, C65–C70 | Ragel scanner as regular expressions with longest-match / first-rule semantics, the token actions (`Lex*`) | Brzozowski derivatives are proved correct against the language semantics; tiling by induction on the scanner's steps |
| C28, C29, C71, C72 | recursive-descent parser on fuel (`Parse*`) | fuel-monotonicity, exact outcome (document, exception, divergence; for every text, also those with numbers too large: `ParseOverflow*`) and step bound; print/parse round trip |
| C30–C32, C73, C74 | `Vec` as a trie in a reference-counted heap (`Vec*`) | tree shape invariant, ownership invariant over all client programs, refinement to immutable lists |
| C33, C75, C76 | `Rc` over a heap with counts and member handles (`Rc*`) | count = number of handles, invariant over all client programs |
| C34, C85 | `Maybe`, `MaybeStorage` over a store of live objects (`Maybe*`) | invariant over all client programs |
| C35, C80, C81 | `Sexpr::Formatter`, `Indent` (`Sexpr*`) | invariant of the layout machine; read-back |
| C38 | `SharedLock`, `LockGuard` (`Lock*`) | counting invariant over all schedules; refutation of exclusion |
| C40, C52 | `InstructionListReader` (`InsnList*`) | induction; divergence for unknown opcodes |
| C41, C77–C79 | `find_sep`, `find_file_in_search_path`, `find_cmd`, the `main`s of ab, ab-run, ab-asm (`Cmd*`) | spec by splitting at `:`; induction |
| C42, C82–C84 | `Span`, `StringSpan` (`Span*`) | arithmetic, induction |
| C86–C97, C130–C133 | `Wasm::Reader`, `ExprReader`, `Expression` decoding, ab-disasm's visitor over an istream with eof/fail/seek semantics (`Wasm*`) | a relational spec of the binary format; reader/format inversion by a small calculus of readers (`reads`); termination on every input by suffix reasoning |
| C98–C107 | what ab-disasm prints: `Wasm/Printing`, `ExprPrinter`, `WastPrinter`, its main (`Dis*`) | nesting count as an invariant over visitor calls; `inv` of the formatter (C35) for reading texts back; exact texts for one-entry modules; unique decodability of the data escapes |
| C108–C110 | the spelling of EDN tokens, written out in characters, against the lexer's patterns, and against EDN's own symbols and strings (`Spell*`) | pattern by pattern equivalence; C25's unique tiling for a text of one token; derivatives for texts that begin nothing |
| C111–C116 | the lexer of the WebAssembly text format as a scanner whose state outlives a call, with pointers into buffers (`Wast*`) | a relational spec of tokens and counted locations; an invariant over the scanner's states, induction over the text |
| C117, C118 | who owns a module: `compile`, `instantiate`, shared pointers, instances, the VM's end (`Own*`) | a history of references without counts; the use count equals the number of owners, induction over histories |
| C119, C120 | `Result`, `Ok`, `Err` (`Res*`) | each result in scope owns one object, induction over histories; refutation for assignments that change the kind |
| C121–C124 | ab-asm's `Input` and `go`, ab-run's `run_file` over a small POSIX state (`Asm*`) | C111 for the tokens; figures read back by induction; the lowest descriptor by counting |
| C125–C126 | the names of operators and the lines of imports and exports in the disassembly (`DisText*`, over `Dis*`) | an independent table of the 172 operators, compared by computation and used for every body; the formatter stepped for each entry, induction over the sections |
| C127–C129 | tokens as values: comparison, printing, source ranges (`Tok*`) | case analysis on kinds; IEEE equality from `IrSpec`; reading the figures back (`Asm*`) and cutting at the first space |
| C134–C136 | `Box` under C++ overload resolution, `Bytes`, the programs ab-help and ab-version started through `Cmd*` (`Misc*`) | simulation of a value-semantics specification of programs; modular arithmetic; composition with `ab_main` |
| C137 | all of `Interp*` (any bytes as code) against the reference machine of `InterpSpec` (`InterpExact`) | progress and determinism of the reference machine; forward simulation with exact step counts; every outcome of the call is an ending of the reference run and conversely |
| C138 | ab-disasm with --verbose (`DisVerbose*`) | a relation between the two formatters (same place of a line / comments pending), preserved by every visitor call; the shape of the reader's calls by the `logs` calculus of C98 |
| C139 | `Reader::string` for names with any bytes (`WasmNameProps`, `WasmNameProps2`) | the reader calculus of C86 |
| C88 (detail) | every cut of a module after its header (`WasmCutProps`, `WasmCut2Props` … `WasmCut6Props`) | a cut of `a ++ b` is a cut of `a`, or all of `a` and a cut of `b`; the state at the end of the input (`E`) |
| C140 | compile on prefixes of module files (`Cut*`) | monotonicity of the grammar of CodecSpec under cutting and extending, one reading, layout of written files |
| C141–C145 | EDN nodes as shared objects in memory, changed in place (`NodeHeap*`) | pointers unfolded to the values of `Ir*`, by depth; agreement of heaps on what is reached; pigeonhole on addresses for acyclic heaps |
| C146 | the parser filling objects in memory (`HeapParse*`) | simulation of the value parser by induction on fuel, the new addresses being a forest (no address visited twice); frame lemmas for the addresses below |
| C147, C148 | `static_call` with any list of result types (`InterpResultProps`) | simulation of the reference run up to the return (`call_reach`), reading the words of the frame followed by the saved words; counterexample family for C148 |
| C149 | two calls of one callee, sequences of calls (`InterpRepeatProps`, `InterpRepeatResultProps` for results of any type, `InterpOtherEndsProps` for endings without a word) | simulation of two reference runs whose registers agree on the arguments and the registers set so far; induction over the sequence with `restored`; leftover registers as counterexample family |
| C150 | builder, writer, compiler and interpreter together (`InterpBuiltProps`, `InterpBuiltResultProps` for results of any type, `InterpOtherEndsProps` for endings without a word) | where the written entries stand (`stand`, added to `write_spec`), induction over the instruction list, C137 |
| C151 | class `Stack` (`Stack*`) | invariant relating handles to owners, permutation of blocks |
| C152–C153 | copies and assignments of counted objects (`RcCopy*`) | the invariant of C33 with the copy's handles loose until the copy exists; the count after an assignment computed for every program; with members, those of different objects by the members one by one (`RcCopy3Props`), and while no object dies: a description of the heap after k members (`RcCopy2Props`) |
| C154 | typed reads of buffers (`ByteBufferValue*`) | the invariant of C06 with alignment of the offset |
| C155-C156 | the rest of `LineInfo` (`Line*`) | induction over the text; uniqueness of the line of C22 |
| C157-C158 | symbols by name, several symbol tables (`SymNode*`) | C21 with node equality; an invariant over histories of tables |
| C159–C160 | what the wast lexer prints (`WastPrintModel`), all of ab-asm's output | the scanner of C111 again with the text printed so far; erasure lemma; induction over the pieces of the text, with the action still to be run as part of the invariant |
| C161–C162 | the number operators of `Sexpr.hpp` 156-184 (`SexprNum*`) | C35 with the numbers replaced by their decimal text; what is printed to standard output by induction over the requests |

## Trusted base

* Coq's kernel (8.16.1, including its VM, used by `vm_compute` in examples and some refutations).
* `Print Assumptions` after every property theorem says "Closed under the global context": no theorem
  depends on any axiom. (`vcheck` lists seven axioms of the library file `Coq.ssr.ssrunder`; they come
  with files of the standard library that are loaded, and no theorem uses them.)
* The hand-written transcription of the C++ text, definition by definition, against the cited lines.
* The following contracts of things outside the repository, each stated where it is used:
  * POSIX: `mmap`, `mprotect`, `munmap` change a page map as documented, and place or fail as they like
    (`MemModel`); `opendir`/`readdir_r` enumerate a directory (`CmdModel`).
  * Ragel: a scanner follows the union of its patterns, takes the longest match, first rule on ties
    (`LexModel`).
  * C++ library: `malloc/realloc/free` with an arbitrary failure threshold (`ByteBufferModel`);
    `std::istream` eofbit/failbit/`seekg` (`StreamModel`, `WasmModel`; beyond the limit `c_lim` a container
    throws); `std::hash` is an arbitrary function that gives equal results for equal values
    (`hash_respects_reals`); `std::unordered_map`'s iteration order is arbitrary (`place`);
    `fmt::format` of a text with an unmatched brace throws; `strncmp` compares until a zero byte or the
    count; doubles are IEEE 754 patterns, arithmetic on them is Coq's `SpecFloat`, `pow` is an arbitrary
    function; `assert` is compiled in.
  * x86-64 System V: the assembly entry `ab-core-Entry.nasm` saves and restores what it says.
* Simplifications: reference counts and other `int` counters that would need 2^31 live objects do not
  overflow; `new` never returns the address of another object, dead or alive, so dangling pointers stay
  recognisable; element copy constructors do not throw (`Maybe`, `Vec`); pointers compare as addresses.

## Modelled and not modelled

Modelled: util (`VarInt`, `leb128`, `ByteBuffer`, `HashUtilities`, `SizeP2`, `Page`, `IntrusiveList`,
`Vector`, `Rc`, `Maybe`, `MaybeStorage`, `Result`, `Sexpr`, `Indent`, `SharedLock`, `LockGuard`, `Span`,
`StringSpan`, `Box`, `Bytes`), core (`Types`, `ModuleBuilder`, `ModuleWriter`, `ModuleReader`, `Loading`, `Interpreter`,
`State`, `Entry.nasm`, `VirtualMachine`, `LinearMemory`, `Label`, `Module`, `Wasm/Reader`,
`Wasm/ExprReader`, `Wasm/Expression`, `Wasm/Printing`), edn (`Ir`, `Lexer`, `Token`, lexer.rl, parser), parse
(`LineInfo`), wast (`Lexer`, `Location`), and the programs ab, ab-run, ab-asm, ab-disasm, ab-help, ab-version.

Not modelled: the C++ compiler, allocator failure outside `ByteBuffer` and the Wasm reader, the memory
model of threads; debug tracing; `#if 0` code (`FuncBuilder.hpp.jinja`) and
headers that do not compile or are not included anywhere (`BitField.hpp`, `TokenTree.hpp`, `match.hpp`,
`Compiler.hpp`, `Intern.hpp`, `MemoryRegion.hpp`, `Fn.hpp`, `Id.hpp`, `Latch.hpp`, `Cli.hpp`, `IntervalTree.hpp`,
`Ranges.hpp`, `Combinators.hpp`, `Internal/MaybeBase.hpp`, `SexprPrinter.inl.hpp`, `ModulePrinting.hpp`, core
`InterpreterBuilder.hpp`, `Wasm/Loader.hpp`, `Edn/Fmt.hpp`); declarations without behaviour of their own (`Constant.hpp`,
`ArrayBox.hpp`, `Address.hpp`, `Iterator.hpp` mixins, `TypeTrait/*`, `ModuleVisitation.hpp`, `Resolver.hpp`, `Runtime.hpp`); `XDisasm.hpp.jinja`, which names opcodes that the enumeration does not have; member functions that do not compile when used, which
are named in the model files (`Vec` copy/move constructors, `assoc`, `conj`; `Rc` move and converting
constructors; `Maybe = NOTHING`; `Result` assignment from a const `Ok` and from a `Result`; `Span` `>`, `<=`, `>=`).

## Findings

What the `_refuted` theorems say about the code, in one line each, is the statement of the property with
"not" in front; the sharpest are: C04 (negative vari32 is UB), C13 (nested calls abort), C14 (register
files larger than the stack are written), C27 (lexer drops the rest of the text silently), C28 (an open
map never ends), C32 (range-for over `Vec` asserts), C34 (`Maybe` keeps its value when assigned nothing),
C38 (the lock does not lock), C50 (register operands are truncated), C57 (copied `LinearMemory` unmapped
twice), C61 (destroying a moved `Context` and its source follows a null pointer or deletes the stack twice), C74/C75 (self-assignment frees), C88 (truncated
modules are completed with 127), C89/C90 (most real modules are misread), C96 (ab-disasm fails on every
correct one-function module), C99 (ab-disasm prints every number as a character).

## Mutation testing

`tools/mutate.py` applies each edit of `seeded/mutants.jsonl` (generated by `seeded/mutants*.py`) to a
scratch copy of the model, rebuilds, and appends what failed to `seeded/LOG.jsonl`.
