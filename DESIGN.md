# Formal model of alliedmodders/sourcepawn: design

## What is here

* `properties.jsonl` – the semantic properties, C01, C02, ...
* `rocq/theories/` – the model (Gallina functions mirroring the C++), small
  separate specifications, lemmas, and property files.
* `MANIFEST.json` – property -> theorem names and status.
* `seeded/LOG.jsonl` – mutation log: wrong edits of the model and the theorems they break.

## Layout and conventions

Each area `X` has

* `X_Model.v`   definitions only; each one cites the file and lines of /repo it mirrors
                and states its simplifications;
* `X_Spec.v`    the property vocabulary, written without using the model's helpers
                (only where the statement needs vocabulary beyond the standard library);
* `X_Proofs.v`  lemmas;
* `X_Props.v`   property theorems only, each closed by `exact lemma`, followed by
                `Print Assumptions`, with an `Example` that exhibits a non-trivial instance
                meeting the hypotheses.

Machine integers are `Z` with explicit `wrap` functions at the places where C++ truncates.
C++ undefined behaviour is a distinct outcome (`UB`), never silently given a value: a theorem
"no UB" therefore says the code relies on no undefined behaviour for those inputs.  Signed
overflow is a separate UB class (`UBArith`) from out-of-bounds access (`UBMem`), because on the
supported compilers overflow wraps; the memory-safety theorems are stated for the wrapping
interpretation, and the overflow sites are listed by separate theorems.

A property that turned out to be false of the code is kept, and the model carries a theorem
`..._refuted` exhibiting a witness, together with the strongest positive theorem found
(suffix `_partial` when it is weaker than the English property).  The manifest note says so.

## Trusted base

* Coq 8.16.1 kernel and `vm_compute` conversion (used for closed witnesses and examples).
* Axioms: what `Print Assumptions` prints under each theorem in the `*_Props.v` files.  The aim is
  "Closed under the global context" everywhere; exceptions are listed at the end of this file.
* The correspondence between the Gallina definitions and the C++ text: by reading; each definition
  cites the lines.  `third_party/amtl` is empty in the sandbox, so helpers such as
  `ke::IsUint32AddSafe` are modelled from their names and from how the code uses them.

## Per-property plan

| Id | Area / model | How it is proved |
|----|--------------|------------------|
| C01 | Rt: `throwIfBadAddress`, accessors; interpreter memory instructions over a byte memory with explicit bounds | case analysis: every access of the model is through a bounds-tracking `load`/`store`; theorem: never `UBMem`, on error memory unchanged. Run: whole calls into verified programs, by an invariant over the activations (the operands, depths and slots the verifier vouches for, the frames' bookkeeping) proved along every step; each condition the verifier does not see to shown necessary by a verified program that faults |
| C02 | Rt: state machine of stack/heap operations | invariant by induction over operation lists; refutation witnesses for wrap-around and for corrupted scopes/frames |
| C03 | Rt: `pushStack/popStack/pushAmxFrame/popAmxFrame` | round-trip law with frame condition (bytes at the saved cells unchanged) |
| C04 | Host: `Invoke` | for any callee (an arbitrary state transformer) |
| C05, C06 | Arrays: `generateFullArray`, both indirection formats | refinement to index arithmetic: closed form of the offset of each tuple; induction on dimensions |
| C07, C08 | Strings: `StringToLocal(UTF8)` on the byte memory | list reasoning; UTF-8 grammar in a spec file; refutation for the one-byte buffer |
| C09, C11, C41 | CFG: prescan/scan over raw cells with fuel for termination | soundness invariant of the worklist; termination by measure when case counts are non-negative, refuted otherwise |
| C10, C42, C43 | Ver (and Ver_Ops for C43): the whole of `MethodVerifier`, and what the engine does with its verdict | the verifier's per-block data agree with the depth along any path of the code; the slot reader is followed over the compiler's encoding |
| C12, C13 | Interpreter ALU | arithmetic lemmas on `Z` |
| C27 | Fold: `calc`, `FoldToConstant`, unary, logical, chained and conditional folding, and the code each replaces | both sides computed: the folded result against decoding and executing the emitted cells |
| C14, C15, C16 | RTTI codec | round trip by induction, bounds by induction on fuel = table size |
| C17, C18, C19, C44 | Img: SMX image validation, the questions a host asks of an accepted image, and the writer; every read goes through a bounds check that gives `IUndef UBMem` | each reader function keeps inside (Img_Safe), acceptance gives `sound` (Img_Accept), the writer's bytes are located exactly (Img_Write), concrete images for the refutations (Img_Cases) |
| C20–C24 | Host API state machines | invariants over histories |
| C25, C26 | CFG analyses | soundness/completeness w.r.t. path definitions on graphs |
| C28 | Gen: EmitExpr, EmitTest, EmitRvalue, EmitStore and the rest of the code generator for 32-bit integer expressions, on top of the label model of C30 | evaluation of source expressions (Gen_Spec) against runs of the interpreter model: one lemma per instruction (Gen_Steps), induction over the mutual syntax for the three ways the generator is called (Gen_Proofs), and the step from emission histories to patched code (Gen_Link) |
| C29 | Stm: EmitStmt and the statement emitters, with the flow types, has_break/has_continue and constant-condition tests semantics.cpp computes, over the expressions of C28 | statements with a fuel for loop rounds (Stm_Spec); what the flow types promise about runs (Stm_Flow); one lemma per statement, loops by induction on rounds, induction over the mutual syntax (Stm_Proofs); functions and labels (Stm_Link) |
| C30 | Assembly buffer labels | invariant: pending chain threaded through code |
| C31 | Ai: which initialisers ArrayValidator accepts, CompoundEmitter, and the data and code of global and local declarations, on top of `initArray` (C40) | what a row of each element type holds (Ai_Leaf); induction over the ranks with the flagged indirection cells (Ai_Proofs); from stored cells to values read (Ai_Reads); relocation by the VM (Ai_Local); concrete declarations for the refutations |
| C40 | `initArray` | layout lemma |
| C32 | Lex: `lex_number`, `litchar`, `get_utf8_char`, character and string literals over a text that ends in the terminator; peeking or advancing past it is undefined | texts are given by independent grammars (`spelled`, `utf8_of`, `character`, `body`): each is read as its value, and whatever is read without a message is in the grammar (Lex_Sound) |
| C33, C34 | String cells, source positions | round-trip/arithmetic |
| C35, C36, C37, C39 | Utilities | refinement to sets / maps / lists |
| C38 | Wd: WatchdogTimer::Run, HandleInterrupt, NotifyTimeoutReceived, Shutdown, frame ids, edge swapping, as a transition system of two threads, sequentially consistent, reads of one check separate steps | history invariant relating last/second to the trace; phase invariant of the handshake; progress by explicit schedules; refuted: entry during a check, invocation ended before the flag is set, function linked while pending, wait without a predicate |
| C45 | Hs: flow types and heap ownership as semantics.cpp computes them, and the heap instructions along the paths of a function | heap top and open scopes tracked along the instructions, by induction over paths (Hs_Proofs); simulation by the VM operations of C02 (Hs_Vm); refuted: blocks taken to end in return but left by break or continue, and conditions of for |
| C46 (and C25, C01, C02 for compiled code) | X64, Jit: the x64 compiler's translation of each instruction into abstract machine instructions, an executable semantics of those, the order of blocks, jumps, switches and their address tables, prologue and return | one simulation lemma per instruction, combined in X64_Proofs; errors in X64_Stop; whole methods over the block graph of C26 (Jit_Proofs), the linked case tables from the order labels are used and bound in (Jit_Table), calls (Jit_Call), interruption (Jit_Poll); where the engines differ, concrete states (X64_Cases, Jit_Cases) |
| C47 | Par: hier14 down to primary, calls, new, sizeof, casts, as functions on tokens with fuel proportional to the text | soundness and completeness against an inductive grammar (Par_Spec) by induction on fuel and on the reading; enough fuel by a length measure; one reading from completeness; refuted: names of default arguments, sizeof before a parenthesis |
| C48 | Stp: parse_stmt and what it calls, with declarations of plain variables, on top of Par | as C47: soundness by induction on fuel, completeness by induction on the grammar with an explicit bound on the fuel; agreement of the two when semicolons are required; refuted: exit statements, two lines read as a declaration |
| C49 | Pre: the stack of open sections and the two readers, active and skipping, by lines, with included files | a tree of sections as specification; a skipped text leaves the state alone and an active one does what the tree means, by induction on the tree; counting of directives for texts that are no tree; refuted: included files that close or leave open a section, a second #else |
| C50 | Mac: text of a macro, arguments, substitution by positions, by characters; expansion of macros by tokens | the text read as pieces (characters, parameters, quoted parameters) as specification; the recorded positions are those of the pieces; expansion ends by induction on the macros not in use; refuted: strings of one backslash and lone apostrophes take in the next line, commas in literals split arguments, and others |
| C51 | Tyc: types as trees, the whole type checker | a list of the language's conversions and a relation of layouts as specification; equivalence with the checker for values, inclusion for arrays by induction on the type, equivalence for signatures; refuted: any takes arrays and rows, short strings, 64-bit elements, callbacks giving an int, callbacks' arguments |
| C52 | Liv: references between functions, the search from the roots, which functions are generated and which are reported | reachability as an inductive relation; invariant of the search (closed apart from the stack), a measure for its end |
| C53 | Aside: the recursive computation over the call graph, the table with its erasures; the size in the header | chains of calls as an inductive relation; induction on the rank of a function in a graph without recursion, a measure for the end in any graph; refuted: chains from other functions than the one listed first, huge requests |
| C54 | Trace: the frame words, the machine stack with rsp and rbp, invoke frames, exit frames, the iterators, the unwinding of errors, the table from machine code to script | runs as trees of host, compiled and interpreted code, what they list told by recursion over the tree; mutual induction with an invariant (the frames hang together above rsp); refuted: the helper for arrays (no return address), entries made with a null or stale instruction |
| C55 | Names: scopes as a heap with parents, lazily created and reparented; entering names, binding expressions, statements, functions; redefinition, shadowing, forwards | a program as the list of its declarations and uses, each with the blocks around it; refinement by a relation between the chain of scopes and the places (empty blocks have no scope); refuted: constants visible in their own value, a third implementation, natives after functions, order of static and global |
| C56 | Enc: every method of the x64 assembler as the bytes it appends; constants before the code and their distances; short and long jumps, labels whose pending jumps are linked through the code; the growing buffer | an independent decoder of x86-64 (prefixes, ModRM, SIB, displacement); round trip `decode (asm c ++ rest) = Some (meant c, rest)` for all operands by cases over the addressing forms; the compiler's instructions (X64) mapped to methods; code with pending jumps as pieces with holes, binding fills the holes; the methods that encode something else refuted by witnesses |
| C57 | Arg: the argument list as parsed and bound to parameters; the checks of one argument as a function | a specification of which argument is meant for which position; soundness and completeness of the binding loop by induction over the arguments, with the array of positions as the invariant; the pushes run on the machine (Gen); a whole call by putting together the pushes, the body (Stm) and the return |
| C58 | Ret: what is reported about returns, over the statements and flow types of Stm | the reports as a function of the returns in source order; flow types against the statement semantics of C29 |
| C59 | Pv: the table of public variables and the entries the runtime keeps, with the null references set up at load | the entries looked up so far hold their addresses, as an invariant over histories of requests; counterexamples for addresses outside memory |

## Files by area

| Files | Models (/repo) |
|-------|----------------|
| Base, Rt, Hist | vm/plugin-runtime.cpp: memory, stack, heap, frames, trackers, heap scopes |
| Array, Init | generateFullArray, generateArray, HeapAlloc2dArray, initArray |
| Interp, Mem, Exec_Safe, Alu | vm/interpreter.cpp, vm/opcodes.cpp, vm/pcode-reader.h |
| Pool, Rtti | libsmx/data-pool, smx-encoding.h, compiler/rtti-builder.cpp, vm/rtti.cpp |
| Bits, Label, Small, Md5, Src | bitset.h, assembler.h labels, code allocator, md5, source-manager, string literals |
| Str, Bind, Exc, Call | string copies, function ids and natives, error scopes, ScriptedInvoker and Invoke |
| Cfg, Dom, Ver | graph-builder.cpp, control-flow.cpp, method-verifier.cpp, method-info.cpp |
| Run | whole calls: Interp, Ver and Rt put together |
| Img | vm/smx-image.cpp, libsmx/smx-builder |
| Lex | compiler/lexer.cpp: literals |
| Gen | compiler/code-generator.cpp, compiler/smx-assembly-buffer.h: integer expressions |
| Stm | compiler/code-generator.cpp: statements and functions; compiler/semantics.cpp: flow types, loop checks, switch |
| Ai | compiler/array-helpers.cpp: ArrayValidator (shapes), CompoundEmitter; compiler/code-generator.cpp: EmitGlobalVar and EmitLocalVar of arrays |
| Hs | compiler/semantics.cpp: flow types, heap ownership; compiler/code-generator.cpp: heap scopes |
| Wd | vm/watchdog_timer.cpp (whole); vm/environment.cpp: enterInvoke/leaveInvoke, Patch/UnpatchAllJumps; linking and unloading as far as they take the lock |
| Fold | compiler/expressions.cpp calc; compiler/semantics.cpp constant folding; the matching parts of compiler/code-generator.cpp |
| Par | compiler/parser.cpp: expressions; compiler/lexer.cpp: matching tokens, line ends |
| Stp | compiler/parser.cpp: statements, local declarations |
| Pre | compiler/lexer.cpp: conditional sections, inclusion |
| Mac | compiler/lexer.cpp: macros |
| Tyc | compiler/type-checker.cpp, kinds of types from compiler/types.h |
| Liv | compiler/semantics.cpp: liveness; symbols.cpp, parse-node.cpp: references; code-generator.cpp: which functions are emitted |
| Aside | compiler/code-generator.cpp: ComputeStackUsage, DynamicMemorySize |
| Trace | vm/stack-frames.{h,cpp}, x64/macro-assembler-x64.{h,cpp}, x64/frames-x64.h, x64/code-stubs-x64.cpp, jit.{h,cpp}: frames, cip mappings; compiled-function.cpp |
| Names | compiler/name-resolution.cpp, symbols.cpp, scopes.{h,cpp}, semantics.h: SemaContext, AutoCreateScope |
| Enc | vm/x64/assembler-x64.h, vm/assembler.h, vm/x64/assembler-x64.cpp |
| Arg | compiler/parser.cpp, compiler/semantics.cpp, compiler/parse-node.cpp, compiler/code-generator.cpp |
| Ret | compiler/semantics.cpp, compiler/parse-node.cpp, compiler/name-resolution.cpp |
| Pv | vm/plugin-runtime.cpp, vm/smx-image.cpp |
| X64, Jit | vm/x64/jit_x64.cpp, vm/x64/assembler-x64.h (meaning of the instructions used), vm/jit.cpp: emit order, jumps |

## Scope notes per area

* Rt/Interp/Mem: 64-bit little-endian host.  Unaligned accesses have the x86 behaviour.  A null
  dereference of an int64 slot is `UBMem`.
* Pool: hashing, atom interning and host allocation failure are outside the model.
* Rtti: table indices (enum, struct, typeset) are given.
* Small (code allocator): the OS is honest; reference counts are represented by the live blocks.
* Bits, Label: the maximum-size assertions and out-of-memory states are not modelled.
* Md5: the sine table is given as its 64 constants.
* Src: files are given by contents and index; macro text by its length.
* Bind: function objects are numbered in order of creation; allocation does not fail.
* Exc: messages are not cut to 1023 bytes; debugger callbacks are not modelled.
* Call: the callee of a host call is an arbitrary computation; host memory is a collection of numbered
  objects of bytes; profiler and crash-dump names are not modelled.
* Cfg: code is whole cells and shorter than 2 GiB; blocks are named by their first cell; bit sets and maps are
  list sets.  `insn_size` of a case table wraps like the int arithmetic.
* Dom: block ids do not wrap; epoch marks are lists of visited blocks; of the assertions only
  `assert(idom)` is modelled.
* Ver: `verifyOp` works on decoded instructions; vectors are lists with their back first; per-block data are maps;
  `collect_func_refs` and the JIT's record of the heap-scope depth are not modelled.
* Run: the host's functions are arbitrary transformers of the plugin's state that keep to its memory, return cells and
  leave the frame pointer as it was; the float operations are arbitrary functions on cells.
* Lex: the digits behind the point of a rational number, strings in triple quotes and the recovery after a malformed
  character literal are not modelled; the standard library's UTF-8 conversion is, with both behaviours for surrogates.
* Img: `inflate` and `malloc` are parameters; zlib gives bytes that fit or an error, or wants more input than it
  was given (then it reads on).  Error messages leave out the section names.  Pretty-printing of types is not modelled.
* Gen: operands have type int, bool or char; calls, accessors, casts, floats, int64 and character arrays are left out.
  The data are objects at fixed addresses, apart from each other and reachable by the script; stack space for the
  temporaries and the absence of a time-out are hypotheses.
* Ai: types of constants, the limit on an array's total size, and int64 or nested-struct fields of enum structs are not
  modelled; a constant is its value.
* Hs: an expression is the number of cells its temporaries take; paths are those of the statements (that the jumps follow
  them is C29); what a function does besides its own heap instructions leaves the heap as it was.
* X64/Jit: machine instructions are terms, not bytes (their bytes: Enc); linking, the native stack around host calls, call thunks, the
  debugger and exit frames are not modelled.  Registers a host function may change hold arbitrary values afterwards.
  Floats are given by functions that agree between the interpreter and the machine (`floats_agree`).  The plugin's memory
  lies anywhere in the lower half of the address space.  An access outside it is `UBMem`.  Instructions the compiler has
  no visitor for (`emit … = None`) are outside the theorems: the compiler then gives up without an error code.
* Par: tokens are given with their kind, value and whether they begin a line; which names are types is not looked up, and
  `defined`, char and cell-array literals as constants are all `Lit`.  Error recovery is not modelled: an error is `PBad`.
* Stp: declared variables have no array dimensions and no brace initialisers; const, enum, static, decl, old-style new,
  static_assert and #pragma unused are errors in the model.
* Pre: lines are told apart already (comments gone, a directive is a line); conditions and the effect of other lines are any functions; the
  queue of several main files is left out.
* Mac: the control character is the backslash; bytes above 0x7f are passed one by one; looking for the parenthesis of a call does not
  itself expand macros; a call with too few arguments is only reported.
* Tyc: the types a checker is given are taken as they are, const qualifiers are left out, typedefs are resolved before; messages are left
  out, so that a conversion that only draws a warning is an acceptance.
* Liv: a body is the list of the functions it uses; that every use in an expression is recorded (the calls of markusage) is taken from
  the code; prototypes are one with their implementation.
* Aside: what one function takes (max_local_stack) is a parameter: that it covers the function's locals and temporaries is not shown.
* Trace: the machine stack is a memory of words without limit or wrap-around (a run that needs more words than there are below rsp is
  excluded); callees keep rsp and rbp as the ABI demands; sizes of machine code are parameters; qsort and bsearch are a search; names and
  lines of positions are C19's. x64 only.
* Names: only names are followed (no types, sizes or values); methodmaps, pstructs, typedefs and names in preprocessor conditions are
  left out; functions whose names are used for something else as well are covered by the refutations only.
* Enc: the decoder is written from the architecture manual and covers only the instructions the assembler has; operand types (8-, 32-,
  64-bit, registers 0 to 15) are those of the C++ parameters; `lea` of labels and offsets from rip are left out.
* Arg: the type checks of an argument are a parameter (`conv`); how the called function is found is left out.  The code of calls is that for
  arguments of one cell (integers, references, arrays, and integers passed for "..."); that the called function keeps its frame's bookkeeping (`in_call`) is C03's.
* Ret: expressions are taken to be correct and of the declared type; after an error the flow types used are those of the statement without it; results are one cell or void.
* Pv: pointers are offsets into the plugin's memory; the image's table is a list of names and addresses, read from accepted images as in Img.
* `strict` parameters say whether assertions are compiled in (and, in the interpreter, whether signed overflow is
  reported as undefined behaviour).

## Axioms

Every theorem in the `*_Props.v` files prints "Closed under the global context".  The library modules that are
loaded but not used by them contain axioms of Coq.ssr.ssrunder.

## Not modelled

The 32-bit x86 JIT back end, patched call thunks in machine code, the parser beyond expressions and statements, the type checker beyond what constant
folding needs, #define's reading of its parameters, host C API glue for profiling and debugging, zlib
(compression is an abstract inverse pair where it matters), threads other than the watchdog.
Floating-point instruction results are not modelled bit-exactly.
