{"id": "C01", "title": "Script addresses are confined to the plugin's own memory", "statement": "When a script dereferences an address (through any load, store, byte access, block copy or block fill instruction), the runtime either performs the access entirely inside the plugin's memory block, or stops the script with an invalid-address or stack/heap error and leaves memory as it was. Addresses lying in the unused gap between heap top and stack top are always rejected.", "quantifier": "all 32-bit addresses, all offsets, all memory contents, all positions of the heap and stack pointers", "why_tests_cant": "The address space is 2^32 wide and the accepted region depends on three moving pointers; boundary and wrap-around combinations cannot be enumerated.", "anchors": [{"file": "vm/plugin-runtime.cpp", "symbols": ["throwIfBadAddress", "acquireAddrRange", "getCellValue", "setCellValue", "getFrameValue", "setFrameValue"]}, {"file": "vm/interpreter.cpp", "symbols": ["visitLOAD_I", "visitLODB_I", "visitSTRB_I", "visitMOVS", "visitFILL"]}]}
{"id": "C02", "title": "Stack and heap never run into each other", "statement": "Whatever sequence of pushes, pops, frame entries, frame exits, heap allocations, heap releases and stack adjustments a script performs, the heap top stays at or above the end of static data, the stack top stays at or below the stack base, and the two never cross: an operation that would cross them reports stack-low / heap-low / heap-min / stack-min and does not happen.", "quantifier": "all finite histories of stack and heap operations with arbitrary amounts", "why_tests_cant": "The invariant is about every reachable interleaving of operations, including huge and negative amounts whose sums wrap in 32 bits.", "anchors": [{"file": "vm/plugin-runtime.cpp", "symbols": ["pushStack", "popStack", "addStack", "heapAllocEx", "pushAmxFrame", "popAmxFrame", "pushTracker", "popTrackerAndSetHeap", "enterHeapScope", "leaveHeapScope"]}]}
{"id": "C03", "title": "Push and pop are inverse; frames restore the caller", "statement": "A value pushed by the runtime is the value next popped; entering a function frame and leaving it again gives the caller back its frame pointer and stack position (after removing exactly the declared arguments), whatever the callee did to its own locals.", "quantifier": "all values, all caller states, all argument counts, all callee write histories below the saved frame", "why_tests_cant": "Requires reasoning over arbitrary callee behaviour between entry and exit.", "anchors": [{"file": "vm/plugin-runtime.cpp", "symbols": ["pushAmxFrame", "popAmxFrame", "pushStack", "popStack"]}]}
{"id": "C04", "title": "A host call leaves the plugin's stack and heap exactly as they were", "statement": "After the host invokes a plugin function, the plugin's stack pointer, heap pointer, frame pointer and heap scope are what they were before the call, whether the call returned normally, raised an error, or was refused; arguments are delivered to the callee in order with their count.", "quantifier": "all argument vectors, all callee behaviours (success, error, corrupting pointers), any nesting", "why_tests_cant": "Quantifies over every callee behaviour and all nested re-entrances.", "anchors": [{"file": "vm/plugin-runtime.cpp", "symbols": ["PluginContext::Invoke"]}, {"file": "vm/scripted-invoker.cpp", "symbols": ["ScriptedInvoker::Invoke", "ScriptedInvoker::Execute"]}]}
{"id": "C05", "title": "Multi-dimensional arrays created at run time are laid out correctly", "statement": "When a script allocates an N-dimensional array with given sizes, then for every index tuple within the sizes, following the indirection vectors from the returned base address reaches a cell inside the newly allocated block, and distinct index tuples reach distinct cells disjoint from the indirection vectors; requested zeroing clears every element.", "quantifier": "all dimension counts, all dimension sizes that fit memory, all index tuples", "why_tests_cant": "The indirection layout depends on every dimension vector; a test fixes a handful of shapes.", "anchors": [{"file": "vm/plugin-runtime.cpp", "symbols": ["generateFullArray", "generateArray", "GenerateInnerArrayIndirectionVectors"]}]}
{"id": "C06", "title": "Array allocation refuses sizes it cannot honour", "statement": "Array allocation with any dimension zero or negative, with a total size overflowing 32 bits, or not fitting between heap and stack is refused with an error before any memory outside the free region is written.", "quantifier": "all dimension vectors of 32-bit values and all memory states", "why_tests_cant": "Overflow in products of arbitrary 32-bit values; needs number-theoretic argument.", "anchors": [{"file": "vm/plugin-runtime.cpp", "symbols": ["CalculateArraySize", "generateFullArray", "generateArray", "heapAllocEx"]}]}
{"id": "C07", "title": "Copying a string into a plugin never overruns its buffer", "statement": "Copying a host string of any contents into a plugin buffer of n bytes writes at most n bytes, always terminates the result with a zero byte when n > 0, and the copied text is a prefix of the source; the reported length is the number of text bytes copied.", "quantifier": "all source strings, all buffer sizes, all destination addresses", "why_tests_cant": "Boundary conditions (zero and one byte buffers, buffers ending at the end of memory) interact with the contents of memory before the buffer.", "anchors": [{"file": "vm/plugin-runtime.cpp", "symbols": ["StringToLocal", "LocalToString", "LocalToPhysAddr"]}]}
{"id": "C08", "title": "UTF-8 copies never split a character", "statement": "Copying valid UTF-8 text into a plugin buffer with the UTF-8 aware copy yields the longest prefix of whole characters that fits in n-1 bytes.", "quantifier": "all valid UTF-8 strings and all buffer sizes", "why_tests_cant": "All byte sequences and all truncation points.", "anchors": [{"file": "vm/plugin-runtime.cpp", "symbols": ["StringToLocalUTF8", "__CheckValidChar"]}]}
{"id": "C09", "title": "Control flow of an accepted method stays on instruction boundaries", "statement": "If bytecode verification accepts a method, then every jump, switch case and fall-through that execution can take inside it lands on the first cell of an instruction of that same method; execution cannot run off the end or into the middle of an instruction.", "quantifier": "all bytecode (arbitrary cell sequences), all execution paths", "why_tests_cant": "Arbitrary attacker-controlled bytecode and unbounded paths.", "anchors": [{"file": "vm/graph-builder.cpp", "symbols": ["GraphBuilder::build", "prescan", "scan", "scanFlow", "scanSwitchFlow"]}, {"file": "vm/method-verifier.cpp", "symbols": ["MethodVerifier::verify", "verifyOp"]}]}
{"id": "C10", "title": "The operand stack depth is statically determined in an accepted method", "statement": "If bytecode verification accepts a method then at each instruction the number of bytes the method has pushed below its frame is the same on every path reaching the instruction, never negative, never exceeds the recorded maximum, and pops never reach into the caller's frame.", "quantifier": "all accepted bytecode and all execution paths through it", "why_tests_cant": "Property over all paths of all accepted programs.", "anchors": [{"file": "vm/method-verifier.cpp", "symbols": ["pushStack", "popStack", "verifyJoin", "handleJoins", "verifyOp"]}]}
{"id": "C11", "title": "Bytecode verification always terminates", "statement": "Loading and verifying any bytecode, including hostile bytecode, finishes.", "quantifier": "all cell sequences", "why_tests_cant": "Termination over every possible byte sequence.", "anchors": [{"file": "vm/graph-builder.cpp", "symbols": ["prescan", "prescan_casetable", "scan"]}]}
{"id": "C12", "title": "The interpreter implements 32-bit integer arithmetic", "statement": "For each arithmetic, comparison, bitwise and shift instruction, the interpreter's result register is the two's-complement 32-bit result; division and remainder floor or truncate as documented, division by zero and minimum/-1 raise the documented errors instead of faulting.", "quantifier": "all pairs of 32-bit operands", "why_tests_cant": "2^64 operand pairs per instruction.", "anchors": [{"file": "vm/interpreter.cpp", "symbols": ["visitSDIV", "visitSMUL", "visitADD", "visitSHL", "visitSHR", "visitSSHR", "visitCompareOp"]}]}
{"id": "C13", "title": "64-bit integer instructions behave as 64-bit two's complement", "statement": "The 64-bit load/store and arithmetic instructions treat two adjacent cells as one little-endian 64-bit value: a stored value reads back unchanged, conversions between 32 and 64 bits sign-extend / truncate, and division errors are raised exactly for zero divisors and minimum/-1.", "quantifier": "all 64-bit operand pairs, all slot addresses", "why_tests_cant": "2^128 operand pairs and aliasing of destination with sources.", "anchors": [{"file": "vm/interpreter.cpp", "symbols": ["visitADD_I64", "visitDIV_I64", "visitTRUNC_I64", "visitCVT_I64", "visitSTOR_S_I64"]}, {"file": "vm/runtime-helpers.cpp", "symbols": ["Int64Div", "Int64Mod"]}]}
{"id": "C14", "title": "Compact integers in type information round-trip", "statement": "Every 32-bit unsigned integer written with the variable-length encoding of the type tables is decoded to the same value consuming exactly the bytes written, whatever follows; no two values share an encoding prefix.", "quantifier": "all 32-bit integers and all trailing bytes", "why_tests_cant": "2^32 values times arbitrary context.", "anchors": [{"file": "libsmx/smx-encoding.h", "symbols": ["CompactEncodeUint32"]}, {"file": "vm/rtti.cpp", "symbols": ["ReadCompactUint32", "decodeUint32", "tryDecodeUint32"]}]}
{"id": "C15", "title": "Types written by the compiler are read back as the same types by the VM", "statement": "Encoding any type (arrays of any depth, functions, references, const, enums, typesets...) into the type tables and decoding it gives the same type, and the encoded form passes the VM's validator.", "quantifier": "all type trees of any depth and any argument lists", "why_tests_cant": "Recursive data of unbounded depth.", "anchors": [{"file": "compiler/rtti-builder.cpp", "symbols": ["encode_type_into", "encode_signature_into", "to_typeid"]}, {"file": "vm/rtti.cpp", "symbols": ["RttiParser::decodeNew", "RttiParser::validateType", "RttiParser::validateFunction"]}]}
{"id": "C16", "title": "Reading validated type information never leaves the type table", "statement": "Whatever bytes a type table holds, validating a type at any offset terminates without reading outside the table, and a type that validates can be decoded without reading outside the table.", "quantifier": "all byte tables and all offsets", "why_tests_cant": "Arbitrary hostile bytes.", "anchors": [{"file": "vm/rtti.cpp", "symbols": ["RttiParser", "RttiData"]}]}
{"id": "C17", "title": "Loading a hostile image never reads outside the image", "statement": "For any byte string offered as a compiled plugin, image validation either rejects it or accepts it, and in doing so only reads bytes of the image; after acceptance every table row and name the host can ask for lies inside the image and names are zero-terminated inside it.", "quantifier": "all byte strings", "why_tests_cant": "All files, including hostile ones.", "anchors": [{"file": "vm/smx-image.cpp", "symbols": ["SmxV1Image::validate", "validateSection", "validateNames", "validateData", "validateCode", "validatePublics", "validateRtti"]}]}
{"id": "C18", "title": "What the image writer writes is what the image reader finds", "statement": "For any list of named sections, the image produced by the writer is accepted by the reader's header checks, and looking up a section by name gives the contents that were added under it, byte for byte; names are resolved to the strings that were added.", "quantifier": "all section lists with distinct names and all contents", "why_tests_cant": "All contents, sizes and orders.", "anchors": [{"file": "libsmx/smx-builder.cpp", "symbols": ["SmxBuilder::write"]}, {"file": "vm/smx-image.cpp", "symbols": ["validate", "findSection"]}]}
{"id": "C19", "title": "Debug lookups name the right function, file and line", "statement": "Asking which source file or line a code address belongs to returns the entry with the greatest start address not exceeding the queried address, and fails exactly when there is none; asking for a function gives the function whose range contains the address.", "quantifier": "all sorted debug tables of any size and all addresses", "why_tests_cant": "Off-by-one errors of binary searches at any table size.", "anchors": [{"file": "vm/smx-image.cpp", "symbols": ["LookupFile", "LookupLine", "LookupFunction", "GetMethodRttiByOffset"]}]}
{"id": "C20", "title": "Public function ids resolve to the function they were issued for", "statement": "The id reported for a public function resolves back to the same function object, ids of different publics differ, and any number that was not issued resolves to nothing.", "quantifier": "all plugins and all 32-bit ids", "why_tests_cant": "All ids, including the odd/even encodings and out of range values.", "anchors": [{"file": "vm/plugin-runtime.cpp", "symbols": ["GetFunctionById", "GetFunctionByName", "GetPublicByIndex", "UpdateNativeBinding"]}, {"file": "compiler/code-generator.cpp", "symbols": ["AddFunctionEntry"]}]}
{"id": "C21", "title": "Native binding rules", "statement": "After binding a native, calling it reaches the bound function; rebinding a bound native is refused unless it was bound as ephemeral or optional; out-of-range indices are refused; other natives are never affected.", "quantifier": "all histories of bind requests", "why_tests_cant": "History-dependent; arbitrary sequences of requests.", "anchors": [{"file": "vm/plugin-runtime.cpp", "symbols": ["UpdateNativeBinding", "GetNative"]}, {"file": "vm/runtime-helpers.cpp", "symbols": ["NativeInvokeThunk"]}]}
{"id": "C22", "title": "Host-call arguments: limits, order and copy-back", "statement": "Arguments pushed by the host arrive in push order; pushing more than the maximum makes the call fail with a parameter error instead of losing or corrupting arguments; by-reference arguments flagged for copy-back receive the callee's final values exactly when the call succeeded, others are untouched.", "quantifier": "all argument lists and all callee behaviours", "why_tests_cant": "All histories of pushes with mixed kinds.", "anchors": [{"file": "vm/scripted-invoker.cpp", "symbols": ["ScriptedInvoker::Invoke"]}, {"file": "include/sp_callable.h", "symbols": ["CallArgs"]}]}
{"id": "C23", "title": "Error codes have the documented messages", "statement": "Asking for the text of any error code returns the documented message for that code and no text for unknown codes, without reading outside the message table.", "quantifier": "all 32-bit codes", "why_tests_cant": "All codes, including just-out-of-range ones.", "anchors": [{"file": "vm/environment.cpp", "symbols": ["GetErrorString"]}]}
{"id": "C24", "title": "Exceptions propagate to the innermost handler", "statement": "An error reported while exception-handling scopes are open is visible in the innermost scope and, unless handled there, in each enclosing one; leaving the outermost scope leaves no pending error behind; the first error wins.", "quantifier": "all nestings and interleavings of scopes and errors", "why_tests_cant": "Unbounded nesting histories.", "anchors": [{"file": "vm/environment.cpp", "symbols": ["EnterExceptionHandlingScope", "LeaveExceptionHandlingScope", "DispatchReport", "HasPendingException"]}]}
{"id": "C25", "title": "Loop detection is sound and complete: the time-out can interrupt every loop", "statement": "Every cycle a verified method can execute contains a point where the runtime checks for a time-out.", "quantifier": "all bytecode and all cycles", "why_tests_cant": "All cyclic paths of all programs.", "anchors": [{"file": "vm/interpreter.cpp", "symbols": ["visitJUMP", "visitJcmp", "visitSWITCH"]}, {"file": "vm/control-flow.cpp", "symbols": ["computeLoopHeaders"]}]}
{"id": "C26", "title": "Block ordering and dominators are right", "statement": "For the control-flow graph of any method, the block ordering lists each reachable block once with every non-loop predecessor before its successors, the computed immediate dominators are the true ones, and a block is marked a loop header exactly when some edge enters it from a block it dominates.", "quantifier": "all graphs", "why_tests_cant": "All graphs, including irreducible ones.", "anchors": [{"file": "vm/control-flow.cpp", "symbols": ["computeOrdering", "computeDominance", "computeLoopHeaders"]}, {"file": "vm/control-flow.h", "symbols": ["dominates"]}]}
{"id": "C27", "title": "Compile-time constant folding agrees with run time", "statement": "Whenever the compiler folds an integer operation on constants, the folded value is the value the VM computes for the same operation at run time, and when the VM would raise a division error the compiler reports an error instead of producing a value.", "quantifier": "all operators and all pairs of 32-bit constants", "why_tests_cant": "2^64 pairs per operator.", "anchors": [{"file": "compiler/expressions.cpp", "symbols": ["calc"]}, {"file": "compiler/semantics.cpp", "symbols": ["CheckUnaryExpr", "BinaryExpr::FoldToConstant"]}, {"file": "vm/interpreter.cpp", "symbols": ["visitSDIV"]}]}
{"id": "C28", "title": "Compiled integer expressions compute what the source says", "statement": "For every integer expression over local variables, globals declared before it, reference arguments, array elements, constants, unary, binary, comparison, logical (short-circuit), chained comparison, ternary and assignment operators, running the generated code with enough stack leaves the value of the expression in the result register, performs its assignments in source order, and leaves the stack as it found it; if the source expression divides by zero the code stops with that error.", "quantifier": "all expression trees of any depth, all variable values", "why_tests_cant": "Unbounded expression trees.", "anchors": [{"file": "compiler/code-generator.cpp", "symbols": ["EmitExpr", "EmitBinary", "EmitBinaryInner", "EmitLogicalExpr", "EmitChainedCompareExpr", "EmitTernaryExpr", "EmitTest", "EmitIncDec"]}, {"file": "vm/interpreter.cpp", "symbols": ["Interpreter::run"]}]}
{"id": "C29", "title": "Compiled statements follow the control flow of the source", "statement": "If/else, while, do-while, for, switch, break, continue and return compile to code that executes exactly the statements the source semantics executes, in the same order, for any nesting.", "quantifier": "all statement trees and all inputs", "why_tests_cant": "Unbounded nesting and loop iteration counts.", "anchors": [{"file": "compiler/code-generator.cpp", "symbols": ["EmitIfStmt", "EmitDoWhileStmt", "EmitForStmt", "EmitSwitchStmt", "EmitLoopControl"]}]}
{"id": "C30", "title": "Forward jumps are patched to the right place", "statement": "However many jumps refer to a label before it is placed, once it is placed every one of them (and every later one) holds the label's address, and no other emitted cell is changed.", "quantifier": "all emission histories over any number of labels", "why_tests_cant": "Histories of interleaved uses of many labels sharing one buffer.", "anchors": [{"file": "compiler/smx-assembly-buffer.h", "symbols": ["bind_to", "encodeAbsoluteAddress"]}, {"file": "compiler/label.h", "symbols": ["Label"]}]}
{"id": "C31", "title": "Initialised arrays contain the values written in the source", "statement": "Data emitted for a global or local array initialiser, once materialised by the VM, holds at each index tuple the initialiser's value, or zero (or the ellipsis progression) beyond the values given.", "quantifier": "all shapes and all initialisers", "why_tests_cant": "Unbounded shapes and nested initialisers.", "anchors": [{"file": "compiler/array-helpers.cpp", "symbols": ["CompoundEmitter"]}, {"file": "vm/plugin-runtime.cpp", "symbols": ["initArray"]}]}
{"id": "C32", "title": "Numeric and character literals mean what they spell", "statement": "A decimal, hexadecimal, octal or binary literal (with digit separators) denotes its mathematical value if it fits, and is diagnosed otherwise; escapes and UTF-8 characters in literals denote the specified code points, and encoding a code point and reading it back is the identity.", "quantifier": "all literal texts", "why_tests_cant": "All texts.", "anchors": [{"file": "compiler/lexer.cpp", "symbols": ["lex_number", "litchar", "get_utf8_char", "packedstring_char"]}]}
{"id": "C33", "title": "String literals are stored byte for byte with a terminator", "statement": "The cells emitted for a string literal contain exactly its bytes in order followed by at least one zero byte and nothing else, and use the minimal number of cells.", "quantifier": "all strings", "why_tests_cant": "All strings and lengths.", "anchors": [{"file": "compiler/lexer-inl.h", "symbols": ["StringToCells"]}, {"file": "compiler/sc.h", "symbols": ["char_array_cells"]}]}
{"id": "C34", "title": "Source positions identify file and line", "statement": "A position handed out while reading a file or a macro expansion maps back to the file, line and column it was created from; positions of different files never collide.", "quantifier": "all sequences of opened files and expansions, all offsets", "why_tests_cant": "History-dependent ranges and binary search.", "anchors": [{"file": "compiler/source-manager.cpp", "symbols": ["EnterFile", "EnterMacro", "TrackExtents", "FindLocRangeSlow"]}, {"file": "compiler/source-file.cpp", "symbols": ["ComputeLineExtents", "OffsetToLineAndCol"]}]}
{"id": "C35", "title": "Deduplicating pools return stable, correct addresses", "statement": "Adding data to the deduplicating pools gives an index where exactly that data is found, now and after any later additions; equal data gives equal indices and the pool never changes bytes already handed out.", "quantifier": "all histories of additions", "why_tests_cant": "Unbounded histories.", "anchors": [{"file": "libsmx/data-pool.cpp", "symbols": ["DataPool::add"]}, {"file": "libsmx/smx-builder.h", "symbols": ["SmxNameTable"]}]}
{"id": "C36", "title": "The hash of a plugin does not depend on how it is fed", "statement": "Feeding data to the digest in any chunks gives the digest of the concatenation, and it equals the published MD5 definition.", "quantifier": "all byte strings and all ways to split them", "why_tests_cant": "All splits of all strings.", "anchors": [{"file": "vm/md5/md5.cpp", "symbols": ["MD5::update", "MD5::finalize"]}]}
{"id": "C37", "title": "Native code blocks never overlap", "statement": "Blocks handed out by the JIT code allocator are inside their pool, at least as large as requested, and never overlap a block handed out before.", "quantifier": "all histories of allocation requests", "why_tests_cant": "Unbounded histories.", "anchors": [{"file": "vm/code-allocator.cpp", "symbols": ["CodeAllocator::Allocate", "findPool", "allocateInPool"]}]}
{"id": "C38", "title": "The watchdog fires only on a genuinely stuck call and disarms cleanly", "statement": "The time-out is raised only when the same invocation was running at two consecutive timer checks; after it is handled all patched loop edges are restored and further calls run normally.", "quantifier": "all interleavings of the timer thread with enters and leaves of invocations", "why_tests_cant": "All schedules.", "anchors": [{"file": "vm/watchdog_timer.cpp", "symbols": ["WatchdogTimer::Run", "HandleInterrupt", "NotifyTimeoutReceived"]}, {"file": "vm/environment.cpp", "symbols": ["PatchAllJumpsForTimeout", "UnpatchAllJumpsFromTimeout"]}]}
{"id": "C39", "title": "Bit sets behave as sets", "statement": "Insertion, removal, union, membership, iteration and take-any of the bit set agree with finite sets of numbers.", "quantifier": "all histories of operations", "why_tests_cant": "Unbounded histories and word boundaries.", "anchors": [{"file": "include/utils/bitset.h", "symbols": ["BitSet"]}]}
{"id": "C40", "title": "A local array initialiser is materialised faithfully and in bounds", "statement": "Materialising an array template at run time copies exactly the template's indirection offsets (relocated), data cells and fill, writes only inside the destination block, and refuses templates that do not fit static data or the destination.", "quantifier": "all template parameters and memory states", "why_tests_cant": "All 32-bit parameters; wrap-around sums.", "anchors": [{"file": "vm/plugin-runtime.cpp", "symbols": ["initArray"]}, {"file": "vm/method-verifier.cpp", "symbols": ["verifyOp (INITARRAY)"]}]}
{"id": "C41", "title": "Verifying bytecode only reads the code", "statement": "While a plugin's bytecode is being verified, only cells of its code section are read, whatever the bytecode contains.", "quantifier": "all cell sequences offered as code, all method start offsets", "why_tests_cant": "Tests use bytecode the compiler produced; the reads at risk depend on operand values that only hostile bytecode has.", "anchors": [{"file": "vm/graph-builder.cpp", "symbols": ["GraphBuilder::prescan", "prescan_casetable", "scanSwitchFlow"]}, {"file": "vm/method-verifier.cpp", "symbols": ["verify", "mergeTracker"]}]}
{"id": "C42", "title": "A method is executed only after verification accepted it", "statement": "Whenever the engine starts executing a method of a plugin, bytecode verification of that method has run to its end and accepted it; a method for which verification gives up is never executed.", "quantifier": "all images that pass loading, all type tables, all method offsets", "why_tests_cant": "The ways in which verification can stop early depend on hostile type tables that no compiler run produces.", "anchors": [{"file": "vm/method-info.cpp", "symbols": ["MethodInfo::InternalValidate"]}, {"file": "vm/method-verifier.cpp", "symbols": ["verify", "verifyLocalSlots"]}]}
{"id": "C43", "title": "Accepted methods name only things that exist", "statement": "When the engine accepts a method for execution, every local variable, argument, global variable, native and function that any reachable instruction of it names exists: locals are declared with the width they are accessed at (or lie in the cells pushed so far), arguments are within the signature, globals lie inside the plugin's data, natives have an entry in the native table, and calls go to the start of a function; operand sizes and alignments are legal.", "quantifier": "all bytecode, all type tables, all reachable instructions and the stack depth they are reached with", "why_tests_cant": "The operands are 32-bit values chosen by a hostile image, and the depth they are checked against depends on every path to the instruction.", "anchors": [{"file": "vm/method-verifier.cpp", "symbols": ["verifyOp", "verifyStackOffset", "verifyDatOffset", "verifyCallOffset"]}]}
{"id": "C44", "title": "Breakpoint lookups stay in the file and function asked for", "statement": "Asking for the code address of a line of a file, or of a function of a file, always answers; the address it gives is in that file and is that of the line (or the next line with code) or of the function, and there is no answer when the file or function does not exist. The number of functions reported for a plugin is that plugin's.", "quantifier": "all accepted images with or without debug information, all lines, files and function names", "why_tests_cant": "Depends on the layout of several files' lines in the tables and on which plugin was asked first.", "anchors": [{"file": "vm/smx-image.cpp", "symbols": ["LookupLineAddress", "LookupFunctionAddress", "getFunctionAddress", "NumFunctions"]}]}
{"id": "C45", "title": "Leaving a block gives back its local arrays' memory", "statement": "Memory a compiled function takes for local arrays and temporaries is given back when control leaves the block that took it, however it leaves (falling through, break, continue). A function therefore never holds more than the total of what is written in it, no matter how many rounds its loops make, and does not run out of heap if that much is free.", "quantifier": "all functions built from the statements of the language, all paths through them, all loop counts, all VM states they are entered in", "why_tests_cant": "A leak shows only after enough rounds of a loop left in the right way; the paths and nestings are unbounded.", "anchors": [{"file": "compiler/code-generator.cpp", "symbols": ["EmitStmt", "EnterHeapScope", "LeaveHeapScope", "EmitLoopControl", "EmitDoWhileStmt", "EmitForStmt"]}, {"file": "compiler/semantics.cpp", "symbols": ["AssignHeapOwnership", "CheckStmt", "CheckBlockStmt", "CheckForStmt", "CheckDoWhileStmt"]}, {"file": "vm/plugin-runtime.cpp", "symbols": ["enterHeapScope", "leaveHeapScope"]}]}
{"id": "C46", "title": "A method compiled to native code does what the interpreter does with it", "statement": "Running a plugin's method as native x64 code has the same effect as interpreting it: the same memory, stack, heap and frame contents, the same result, and where the interpreter stops with an error, the native code stops with the corresponding error and the same memory. Calls between compiled methods lay out and remove frames so that the caller finds its state again.", "quantifier": "all verified methods, all states of the plugin's memory and registers a run can be in, all placements of the plugin's memory in the address space, all paths through the method", "why_tests_cant": "Each instruction is translated by hand into machine code whose flags, widths and addressing differ from the interpreter's arithmetic in corner cases; combinations of instructions, block orders and states are unbounded.", "anchors": [{"file": "vm/x64/jit_x64.cpp", "symbols": ["Compiler::emitPrologue", "Compiler::visitMOVS", "Compiler::visitHEAP", "Compiler::visitLOAD_I", "Compiler::visitBOUNDS", "Compiler::visitRETN", "Compiler::visitSWITCH"]}, {"file": "vm/jit.cpp", "symbols": ["CompilerBase::emit", "CompilerBase::visitJUMP"]}, {"file": "vm/interpreter.cpp", "symbols": ["Interpreter::run"]}]}
{"id": "C47", "title": "Expressions are read as the table of operators says", "statement": "Reading an expression always ends. What is read is exactly what the grammar allows, every expression of the grammar is read whole, and a text has one reading: tighter operators are applied first, equal ones from the left, comparisons form a chain, assignments and conditional operators group to the right, and arguments keep the names they were given.", "quantifier": "all token sequences of any length and nesting, with required or optional semicolons", "why_tests_cant": "Operators, prefixes, calls, indices, casts and line ends combine in unboundedly many ways; a test sees one tree for one text, not that no text has two trees or that every tree is reachable.", "anchors": [{"file": "compiler/parser.cpp", "symbols": ["Parser::hier14", "Parser::hier13", "Parser::plnge", "Parser::plnge_rel", "Parser::hier2", "Parser::hier1", "Parser::primary", "Parser::parse_call", "Parser::parse_new_array", "Parser::nextop"]}, {"file": "compiler/lexer.cpp", "symbols": ["Lexer::match", "Lexer::need", "Lexer::peek_same_line"]}]}
{"id": "C48", "title": "Statements nest as they are written", "statement": "Reading a statement always ends and accepts exactly the grammar: branches, loops, switches and blocks contain the statements written in them, an else belongs to the nearest if, break and continue are accepted only inside loops, declarations only in blocks and for loops, and a text has one reading; with optional semicolons a line's end closes the statement on it.", "quantifier": "all token sequences of any length and nesting, with required or optional semicolons", "why_tests_cant": "Statements nest without bound and the reader decides by looking ahead what begins a declaration and where a statement ends; no set of sample programs shows that no text is read in another way than written.", "anchors": [{"file": "compiler/parser.cpp", "symbols": ["Parser::parse_stmt", "Parser::parse_compound", "Parser::parse_if", "Parser::parse_for", "Parser::parse_switch", "Parser::parse_case", "Parser::parse_expr", "Parser::parse_local_decl", "Parser::parse_var", "Parser::var_init"]}, {"file": "compiler/lexer.cpp", "symbols": ["Lexer::match", "Lexer::need"]}]}
{"id": "C49", "title": "Exactly the selected conditional sections are compiled", "statement": "Of each #if group the branch whose condition is the first to hold is compiled, or the #else branch if none holds, at any nesting and across included files and #endinput; no other line has an effect and no other condition is evaluated; misplaced and missing directives are reported, and no text makes the reader fail an assertion.", "quantifier": "all source texts, of any length, nesting and depth of inclusion, and all conditions and definitions", "why_tests_cant": "Sections nest without bound and a condition depends on every definition before it; samples show only the nestings somebody thought of.", "anchors": [{"file": "compiler/lexer.cpp", "symbols": ["Lexer::HandleDirectives", "Lexer::HandleSkippedSection", "Lexer::PlungeFile", "Lexer::HandleEof"]}, {"file": "compiler/lexer.h", "symbols": ["IsSkipping"]}]}
{"id": "C50", "title": "A macro call stands for the macro's text with the arguments put in", "statement": "The text of a macro is the rest of its line; a call is replaced by that text with every parameter outside literals replaced by the argument written for it, and # before a parameter putting it in quotes; a macro is left alone within its own text, and expansion always ends.", "quantifier": "all macro texts, all arguments, and all sets of macros however they name each other", "why_tests_cant": "Texts and arguments are unbounded and may hold literals, parentheses and other macros in any arrangement.", "anchors": [{"file": "compiler/lexer.cpp", "symbols": ["Lexer::SkimUntilEndOfLine", "Lexer::SkimMacroArgument", "Lexer::PerformMacroSubstitution", "Lexer::EnterMacro", "Lexer::HandleEof"]}]}
{"id": "C51", "title": "A value is accepted only where its type serves", "statement": "A value is accepted for a variable, argument or result exactly if the language has a conversion between the types; an accepted array has as many dimensions, each of the promised size, and as wide elements as the receiver may rely on; a function accepted for a function type can be called with the arguments that type lists; and no pair of types makes the checker fail.", "quantifier": "all pairs of types, however deeply arrays, references and signatures nest, and all contexts", "why_tests_cant": "Types are unbounded trees and each check looks at a pair of them; samples cover a few pairs.", "anchors": [{"file": "compiler/type-checker.cpp", "symbols": ["TypeChecker::Check", "TypeChecker::Coerce", "TypeChecker::CheckValueType", "TypeChecker::CheckArrays", "TypeChecker::CheckFunction", "TypeChecker::CheckFunctionSignature"]}, {"file": "compiler/types.h", "symbols": ["coercesFromInt", "hasCellSize"]}, {"file": "compiler/expressions.cpp", "symbols": ["HasTagOnInheritanceChain"]}]}
{"id": "C52", "title": "Code is generated for exactly the functions that can come to be used", "statement": "The functions code is generated for are those that can be reached from a public function by uses in function bodies; a use of a function that was left out is never met; and a function is reported as never used exactly if neither a public function nor a stock or member function can reach it.", "quantifier": "all programs: any number of functions using each other in any way, recursively or not", "why_tests_cant": "The graph of uses is arbitrary; a function left out shows only when somebody calls it at run time.", "anchors": [{"file": "compiler/semantics.cpp", "symbols": ["Semantics::DeduceLiveness", "Semantics::DeduceMaybeUsed", "Semantics::TestSymbol"]}, {"file": "compiler/symbols.cpp", "symbols": ["markusage"]}, {"file": "compiler/parse-node.cpp", "symbols": ["FunctionDecl::AddReferenceTo"]}, {"file": "compiler/code-generator.cpp", "symbols": ["CodeGenerator::EmitFunctionDecl", "CodeGenerator::EmitCall"]}]}
{"id": "C53", "title": "Enough memory is set aside for the functions active at one time", "statement": "For a program without recursion, the memory the compiled image asks for is at least what any chain of calls takes, at least what a pragma asks for, and the estimate is no greater than what some chain takes.", "quantifier": "all call graphs and all sizes of functions", "why_tests_cant": "The number of chains grows exponentially with the program; too small an estimate shows only on the deepest one.", "anchors": [{"file": "compiler/code-generator.cpp", "symbols": ["CodeGenerator::ComputeStackUsage", "CodeGenerator::DynamicMemorySize"]}]}
{"id": "C54", "title": "A stack trace shows exactly what is active", "statement": "Whenever host code asks for the frames - in a native, in an error report, in the debugger - the listing comes to an end and shows every script function and native that has been entered and not left, innermost first, across plugins and across compiled and interpreted code, each function with the instruction it is at; returning and unwinding after errors leave the frames around as they were.", "quantifier": "all nestings of host, compiled and interpreted calls, any contents of the machine stack, all points at which a listing is taken", "why_tests_cant": "A trace is assembled from words on the machine's stack and a table made at compile time; every nesting and every instruction that can fail is another case, and a wrong line looks plausible.", "anchors": [{"file": "vm/stack-frames.cpp", "symbols": ["FrameIterator", "JitFrameIterator", "InterpFrameIterator"]}, {"file": "vm/x64/macro-assembler-x64.cpp", "symbols": ["MacroAssembler::enterFrame", "MacroAssembler::enterExitFrame"]}, {"file": "vm/x64/code-stubs-x64.cpp", "symbols": ["CodeStubs::CompileInvokeStub"]}, {"file": "vm/jit.cpp", "symbols": ["CompilerBase::emit", "CompilerBase::find_entry_fp"]}, {"file": "vm/compiled-function.cpp", "symbols": ["CompiledFunction::FindCipByPc"]}]}
{"id": "C55", "title": "A name means the innermost declaration around it", "statement": "Every use of a name in a program is bound to the declaration in the innermost of the blocks around it - block, arguments, file, all files - among those that stand before it, or, for functions and file-level names inside bodies, anywhere; a function declared ahead is taken for its implementation. A program is refused for its names exactly when a used name is visible nowhere around its use or a name is declared twice at one place, and a warning is given exactly for the declarations that hide another.", "quantifier": "all programs of any number of files, all nestings of blocks, all orders of declarations and uses", "why_tests_cant": "Scopes are created only when a name is added and are hung up in their place later; which parent is looked at depends on every declaration made before, and a wrong binding compiles and runs.", "anchors": [{"file": "compiler/name-resolution.cpp", "symbols": ["SemaContext::ScopeForAdd", "AutoCreateScope", "FunctionDecl::EnterNames", "FunctionDecl::CanRedefine", "VarDeclBase::Bind", "ConstDecl::Bind", "SymbolExpr::DoBind", "BlockStmt::Bind", "ForStmt::Bind"]}, {"file": "compiler/symbols.cpp", "symbols": ["GetNewNameStatus", "CheckNameRedefinition", "FindSymbol", "DefineSymbol"]}, {"file": "compiler/scopes.cpp", "symbols": ["SymbolScope::Add", "SymbolScope::AddChain"]}]}
{"id": "C56", "title": "Machine code means what the compiler asked for", "statement": "The bytes the x64 back end writes are, to the processor, the instructions it asked its assembler for, with the registers, addresses and constants given; jumps to earlier places arrive there, calls and jumps through stored addresses find them wherever the code is placed in memory, and nothing is written outside the buffer code is collected in.", "quantifier": "all operands (registers, base/index/displacement addresses, constants) of all instructions, all sequences of them, all places of code in memory, all points at which memory runs out", "why_tests_cant": "One operand in an unusual register or with a rare displacement picks another encoding; tests run only the encodings that existing scripts happen to need, and a wrong prefix often changes only the upper half of a register.", "anchors": [{"file": "vm/x64/assembler-x64.h", "symbols": ["Assembler", "Operand", "emit1", "emitRex", "movq", "rip", "emitToExecutableMemory"]}, {"file": "vm/assembler.h", "symbols": ["AssemblerBase", "ensureSpace", "writeInt32"]}, {"file": "vm/x64/jit_x64.cpp", "symbols": ["Compiler"]}]}
{"id": "C57", "title": "In a call every parameter receives the argument written for it, or its default", "statement": "An accepted call passes to every parameter the argument written for it, by position or by name, or its own default when nothing is written; extra arguments go to \"...\" in order; the called function finds them, and their number, in its frame.  Calls with an unknown name, an argument given twice, one too many or a needed one missing are refused, and no other call is.", "quantifier": "all parameter lists, all sequences of positional, skipped and named arguments, all argument expressions", "why_tests_cant": "The mixtures of positional, skipped, named and variable arguments are endless; a default passed for the neighbouring parameter has the right type and compiles silently.", "anchors": [{"file": "compiler/parser.cpp", "symbols": ["parse_call"]}, {"file": "compiler/semantics.cpp", "symbols": ["CheckCallExpr", "CheckArgument"]}, {"file": "compiler/parse-node.cpp", "symbols": ["FindNamedArg"]}, {"file": "compiler/code-generator.cpp", "symbols": ["EmitCallExpr", "EmitCall"]}, {"file": "vm/interpreter.cpp", "symbols": ["visitCALL"]}, {"file": "vm/plugin-runtime.cpp", "symbols": ["pushAmxFrame"]}]}
{"id": "C58", "title": "A function declared to return a value does, on every path, or the compiler says so", "statement": "A function whose declaration has a type other than void, and about which the compiler reports nothing, returns a value however it runs; a void function returns none; a function that uses both \"return\" and \"return <value>\" is reported; a statement reported as unreachable is never reached.", "quantifier": "all function bodies built of blocks, conditionals, loops, switches, break, continue and return; all declarations; all runs", "why_tests_cant": "The paths through nested loops and switches are unbounded, and a function that falls off its end returns 0, which most tests take for a result.", "anchors": [{"file": "compiler/semantics.cpp", "symbols": ["CheckReturnStmt", "CheckBlockStmt", "CheckIfStmt", "CheckSwitchStmt", "CheckDoWhileStmt", "CheckForStmt", "CheckFunctionReturnUsage", "ReportFunctionReturnError"]}, {"file": "compiler/parse-node.cpp", "symbols": ["MustReturnValue"]}, {"file": "compiler/name-resolution.cpp", "symbols": ["FunctionDecl::Bind"]}]}
{"id": "C59", "title": "Public variables are found where the plugin put them", "statement": "A host that asks for a public variable, by index or by name, gets the address the plugin's image gives for it, whatever was asked before; an index, a name or an address that does not exist is refused each time; the null vector and the null string are the variables of those names.", "quantifier": "all images; all histories of requests, at any heap and stack limits", "why_tests_cant": "Answers are kept from one request to the next, so what a request returns depends on all earlier ones and on the limits at the time.", "anchors": [{"file": "vm/plugin-runtime.cpp", "symbols": ["GetPubvarByIndex", "FindPubvarByName", "GetPubvarAddrs", "LocalToPhysAddr", "LocalToStringNULL", "Initialize"]}, {"file": "vm/smx-image.cpp", "symbols": ["GetPubvar", "FindPubvar"]}]}
