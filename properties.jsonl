{"id": "C01", "title": "SparseMemory behaves as a flat zero-initialised byte array", "statement": "Any sequence of SparseMemory read/write/clear calls returns exactly the results (bytes or ValueError) that a flat array of `size` zero bytes would return; a write changes exactly the addressed bytes, and a rejected call changes nothing.", "quantifier": "every size, every history of read/write/clear calls with every address, length and data, including negative and out-of-range arguments and accesses that straddle 4096-byte block boundaries", "why_tests_cant": "the blocks touched depend on address, length and previous history; tests sample a few addresses and never all block-boundary/lazy-allocation combinations", "anchors": ["cocotbext/axi/sparse_memory.py: SparseMemory.read, SparseMemory.write, SparseMemory.clear"]}
{"id": "C02", "title": "Index and slice access to SparseMemory equals Python slicing of the flat array", "statement": "mem[i], mem[i:j], mem[i]=v, mem[i:j]=data agree with the flat array under Python slice clamping rules (reversed slices and empty slices at the end raise ValueError); wrong-size slice assignment, steps other than 1 and out-of-range indices raise and leave the memory unchanged.", "quantifier": "every size, start, stop, step, value and memory content", "why_tests_cant": "slice clamping has unbounded integer arguments of either sign", "anchors": ["cocotbext/axi/sparse_memory.py: SparseMemory.__getitem__, SparseMemory.__setitem__"]}
{"id": "C03", "title": "Memory word accessors round-trip and are confined", "statement": "Memory.write_words(address, ws_list, byteorder, ws) followed by read_words of the same shape returns the same integers, for both byte orders and any word size, changes no byte outside [address, address+ws*count), and raises OverflowError without touching memory exactly when some integer does not fit; byte/word/dword/qword variants are the ws=1/2/4/8 instances.", "quantifier": "every address, word list, word size, byte order and prior memory content", "why_tests_cant": "unbounded integers, counts and word sizes", "anchors": ["cocotbext/axi/memory.py: Memory.write_words, Memory.read_words and the byte/word/dword/qword wrappers"]}
{"id": "C04", "title": "A RAM can be constructed at its documented sizes", "statement": "Memory(size) (hence AxiRam/AxiLiteRam/ApbRam) can be constructed for every documented size, including the documented default 2**64.", "quantifier": "every size", "why_tests_cant": "tests only construct one size (2**16)", "anchors": ["cocotbext/axi/memory.py: Memory.__init__", "cocotbext/axi/sparse_memory.py: SparseMemory.__len__", "cocotbext/axi/axi_ram.py: AxiRam.__init__"]}
{"id": "C05", "title": "hexdump_lines dumps exactly the requested bytes", "statement": "hexdump_lines(data, start, length, row_size) yields ceil(n/row_size) lines, where line i is labelled with the address of its first byte and shows, in order, exactly the bytes of that row, n being the number of requested bytes that exist; every byte can be read back from the text. hexdump_str gives one text whose lines are those lines.", "quantifier": "every data, start, length and positive row size", "why_tests_cant": "unbounded data length and alignment", "anchors": ["cocotbext/axi/utils.py: hexdump_line, hexdump_lines, hexdump_str", "cocotbext/axi/memory.py: Memory.hexdump_lines"]}
{"id": "C06", "title": "Buddy allocations are aligned, large enough and disjoint from every live allocation", "statement": "Every successful alloc(n) returns an address aligned to the smallest power of two >= max(n, min_alloc), and that naturally aligned block is disjoint from the blocks of all allocations that are live at that moment.", "quantifier": "every capacity, min_alloc and every history of alloc/free calls (valid or not)", "why_tests_cant": "disjointness depends on the whole history of splits and merges", "anchors": ["cocotbext/axi/buddy_allocator.py: BuddyAllocator.alloc, BuddyAllocator.free"]}
{"id": "C07", "title": "Buddy allocations lie inside the managed range exactly for power-of-two capacities", "statement": "If the capacity is a power of two every allocated block lies in [0, size). For every other capacity >= 1 this fails: some history of alloc calls returns a block that ends beyond `size`.", "quantifier": "every capacity and every history of alloc/free calls", "why_tests_cant": "the repository test uses only capacity 1024", "anchors": ["cocotbext/axi/buddy_allocator.py: BuddyAllocator.__init__, BuddyAllocator.alloc"]}
{"id": "C08", "title": "Buddy free succeeds exactly on live allocations and coalesces completely", "statement": "free(a) succeeds if and only if a was returned by alloc and not freed since (otherwise ValueError and no state change); it never fails with 'failed to free memory'; whenever no allocation is live the allocator is back in its initial state (one free block covering everything).", "quantifier": "every capacity and every history of alloc/free calls, any free order", "why_tests_cant": "exponentially many alloc/free orders", "anchors": ["cocotbext/axi/buddy_allocator.py: BuddyAllocator.free"]}
{"id": "C09", "title": "Buddy allocation fails only when no aligned block is free", "statement": "alloc(n) with 1 <= n <= size raises 'out of memory' if and only if every naturally aligned block of the rounded-up size inside the managed range contains a byte of a live allocation.", "quantifier": "every capacity and every history of alloc/free calls", "why_tests_cant": "absence of fragmentation losses is a statement about all histories", "anchors": ["cocotbext/axi/buddy_allocator.py: BuddyAllocator.alloc"]}
{"id": "C10", "title": "Registered regions never overlap", "statement": "After any sequence of register_region calls on an AddressSpace the accepted regions are pairwise disjoint; a call is rejected exactly when the base is out of range or the new range overlaps an existing one, and a rejected call changes nothing.", "quantifier": "every sequence of register_region calls with every base and size", "why_tests_cant": "depends on the whole registration history", "anchors": ["cocotbext/axi/address_space.py: AddressSpace.find_regions, AddressSpace.register_region"]}
{"id": "C11", "title": "AddressSpace.read decodes every byte to the region that owns its address", "statement": "AddressSpace.read(a, n) returns, byte for byte, what the owning region of each address holds at the translated address (base-relative plus offset, or untranslated for offset None), splitting across adjacent regions; it raises if any address of the range is unmapped.", "quantifier": "every set of registered regions reached by any registration history, nested spaces and windows included, every address and length", "why_tests_cant": "region layouts and straddling accesses are unbounded", "anchors": ["cocotbext/axi/address_space.py: AddressSpace.read, Region.read, MemoryInterface.read"]}
{"id": "C12", "title": "AddressSpace.write updates exactly the decoded bytes", "statement": "AddressSpace.write(a, data) has the same effect as writing the bytes one at a time in increasing address order to the region owning each address; no other byte of any region changes; a subsequent read through the same route returns the data.", "quantifier": "every set of registered regions, every address and data, every memory content", "why_tests_cant": "region layouts and straddling accesses are unbounded", "anchors": ["cocotbext/axi/address_space.py: AddressSpace.write, Region.write"]}
{"id": "C13", "title": "A rejected AddressSpace write changes nothing", "statement": "If AddressSpace.write raises, no byte of any region has changed.", "quantifier": "every set of regions, address and data", "why_tests_cant": "the failing case needs a multi-region layout with a gap", "anchors": ["cocotbext/axi/address_space.py: AddressSpace.write"]}
{"id": "C14", "title": "Windows are confined and translate exactly", "statement": "A read or write through a Window (or any chain of nested Windows) of size s at offset o either raises or is exactly the access at address+o (sum of the offsets) of the parent, and never touches a parent address outside [o, o+s).", "quantifier": "every chain of windows of any depth, every address, length and data", "why_tests_cant": "nesting depth and arguments are unbounded", "anchors": ["cocotbext/axi/address_space.py: Window._read, Window._write, Window.get_parent_address, MemoryInterface.check_range, MemoryInterface.create_window"]}
{"id": "C15", "title": "get_absolute_address is the address at which the root reaches the region", "statement": "For a region or window built top-down (each object registered/created after its parent was placed) and registered with offset 0, reading root at region.get_absolute_address(a) gives the same bytes as region.read(a).", "quantifier": "every tree of address spaces, windows and regions, every address", "why_tests_cant": "construction orders and depths are unbounded", "anchors": ["cocotbext/axi/address_space.py: MemoryInterface.get_absolute_address, AddressSpace.register_region, MemoryInterface.create_window"]}
{"id": "C16", "title": "Pool allocations are disjoint and stay inside the pool", "statement": "Windows from WindowPool.alloc_window and regions from Pool.alloc_region are pairwise disjoint, naturally aligned, and inside the pool's address range.", "quantifier": "every pool size and every history of allocations", "why_tests_cant": "depends on the whole allocation history and pool size", "anchors": ["cocotbext/axi/address_space.py: WindowPool.alloc_window, Pool.alloc_region"]}
{"id": "C17", "title": "Word and byte accessors of memory interfaces return the stored integers", "statement": "On a MemoryInterface, write_words/read_words and write_byte/read_byte round-trip.", "quantifier": "every address, word list, word size, byte order; every kind of region", "why_tests_cant": "unbounded values; tests only exercise masters, not regions", "anchors": ["cocotbext/axi/address_space.py: MemoryInterface.read_words, write_words, read_byte, write_byte"]}
{"id": "C18", "title": "PeripheralRegion performs each access exactly once", "statement": "Each read or write of a PeripheralRegion invokes the wrapped object's read or write exactly once.", "quantifier": "every wrapped object (synchronous or asynchronous), every access", "why_tests_cant": "requires stateful wrapped objects with side effects", "anchors": ["cocotbext/axi/address_space.py: PeripheralRegion._read, PeripheralRegion._write"]}
{"id": "C19", "title": "Accesses beyond the end of an AddressSpace are rejected", "statement": "AddressSpace.read/write of a range not contained in [0, size) raises.", "quantifier": "every address space, region layout, address and length", "why_tests_cant": "needs a region registered across the end of the space", "anchors": ["cocotbext/axi/address_space.py: AddressSpace.read, AddressSpace.write, AddressSpace.register_region"]}
{"id": "C20", "title": "AXI master bursts are legal", "statement": "For INCR operations every AW/AR burst emitted by AxiMaster has length 1..max_burst_len (<=256) beats, does not cross a 4 kB boundary, has size <= bus width, starts where the previous burst ended (first at the requested address), all bursts carry the requested/assigned ID and sideband values, the burst fields fit their signal widths, and write data beats carry wlast exactly at the last beat of each burst.", "quantifier": "every address, length, burst size, max_burst_len, power-of-two bus width and address width", "why_tests_cant": "unbounded combination of alignment, length, size and width", "anchors": ["cocotbext/axi/axi_master.py: AxiMasterWrite._process_write, AxiMasterRead._process_read"]}
{"id": "C21", "title": "AXI write strobes and data lanes select exactly the requested bytes", "statement": "Interpreting the beats of an INCR write by the AXI rules (byte lane l of a beat at word address w is address w+l), the strobed lanes are exactly the addresses [address, address+len(data)), each once, carrying the corresponding data byte, and every strobed lane lies inside the beat's size-aligned container; every unstrobed lane carries 0.", "quantifier": "every address, data, burst size and bus width", "why_tests_cant": "unbounded data lengths and alignments", "anchors": ["cocotbext/axi/axi_master.py: AxiMasterWrite._process_write"]}
{"id": "C22", "title": "AXI master write updates exactly the requested bytes of the slave's target", "statement": "AxiMaster.write(address, data) against AxiSlave/AxiRam changes the target exactly at [address, address+len) to data, nothing else, passes all slave protocol assertions, and completes with OKAY.", "quantifier": "every address, data, burst size, max_burst_len, bus width and prior memory content", "why_tests_cant": "unbounded combination of alignment, length, size and width", "anchors": ["cocotbext/axi/axi_master.py: AxiMasterWrite._process_write", "cocotbext/axi/axi_slave.py: AxiSlaveWrite._process_write", "cocotbext/axi/axi_ram.py: AxiRamWrite._write"]}
{"id": "C23", "title": "AXI master read returns exactly the target's bytes", "statement": "AxiMaster.read(address, length) against AxiSlave/AxiRam returns exactly the target's bytes [address, address+length) with OKAY, and passes all rlast/ID assertions.", "quantifier": "every address, length, burst size, max_burst_len, bus width and memory content", "why_tests_cant": "unbounded combination of alignment, length, size and width", "anchors": ["cocotbext/axi/axi_master.py: AxiMasterRead._process_read, _process_read_resp_id", "cocotbext/axi/axi_slave.py: AxiSlaveRead._process_read"]}
{"id": "C24", "title": "AXI write then read round-trips, also on a wrapping RAM", "statement": "A write followed by a read of the same range returns the data, with independent burst sizes and max_burst_len on the two sides; on an AxiRam smaller than the address space addresses alias modulo the RAM size.", "quantifier": "every address, data, sizes, RAM size that is a multiple of the bus width", "why_tests_cant": "unbounded combinations", "anchors": ["cocotbext/axi/axi_ram.py: AxiRamWrite._write, AxiRamRead._read"]}
{"id": "C25", "title": "AXI slave beat addresses follow the AXI specification", "statement": "For each beat n of an accepted burst the slave accesses the bus word of the AXI-specified address: FIXED always the start address, INCR aligned_start + n*size, WRAP wrapping at the burst container.", "quantifier": "every start address, burst length, size, type and bus width", "why_tests_cant": "unbounded addresses and all lengths", "anchors": ["cocotbext/axi/axi_slave.py: AxiSlaveWrite._process_write, AxiSlaveRead._process_read"]}
{"id": "C26", "title": "FIXED-burst writes from the master address the same location in every beat", "statement": "With burst=FIXED every beat of AxiMaster.write targets the byte lanes of the requested address container.", "quantifier": "every address, data, burst size and bus width", "why_tests_cant": "needs lane-level reasoning for all sizes", "anchors": ["cocotbext/axi/axi_master.py: AxiMasterWrite._process_write (FIXED)"]}
{"id": "C27", "title": "AXI slave produces exactly one response per burst with the burst's ID, and reports target failures", "statement": "For each accepted AW burst AxiSlaveWrite produces one B with the same ID, SLVERR if some target write raised and OKAY otherwise; for each AR burst AxiSlaveRead produces arlen+1 R beats with the same ID, rlast only on the last, SLVERR and zero data exactly on the beats whose target read raised.", "quantifier": "every burst, every target behaviour (any pattern of exceptions)", "why_tests_cant": "exception patterns are unbounded", "anchors": ["cocotbext/axi/axi_slave.py"]}
{"id": "C28", "title": "Errors from any burst reach the caller", "statement": "If any response beat of an operation carries an error (SLVERR/DECERR), the resp field returned by AxiMaster/AxiLiteMaster/ApbMaster is an error; if all are OKAY, it is OKAY.", "quantifier": "every sequence of response codes", "why_tests_cant": "unbounded response sequences", "anchors": ["cocotbext/axi/axi_master.py: _process_write_resp_id, _process_read_resp_id", "cocotbext/axi/axil_master.py", "cocotbext/axi/apb.py: ApbMaster._run"]}
{"id": "C29", "title": "Unserviceable requests are rejected before anything is issued", "statement": "read/write raise ValueError and issue nothing when the address or range is outside the address space, the size exceeds the bus width, the ID does not fit the ID signal, or a sideband value is given for an absent signal; otherwise the request is queued.", "quantifier": "every argument combination and every bus configuration", "why_tests_cant": "unbounded arguments", "anchors": ["cocotbext/axi/axi_master.py: init_write, write, init_read, read", "cocotbext/axi/axil_master.py", "cocotbext/axi/apb.py"]}
{"id": "C30", "title": "Responses are matched to the operation that caused them, whatever the interleaving across IDs", "statement": "If the slave answers each burst once and in order per ID, then for every interleaving of responses across IDs and every scheduling of the master's tasks each operation completes exactly once, with the responses of its own bursts, in issue order per ID.", "quantifier": "every set of operations, ID assignment, response interleaving and task schedule", "why_tests_cant": "exponentially many interleavings", "anchors": ["cocotbext/axi/axi_master.py: TagContext, TagContextManager, _process_write_resp, _process_write_resp_id, _process_read_resp_id"]}
{"id": "C31", "title": "idle()/wait() are honest about outstanding operations", "statement": "idle() is true only if every operation initiated so far (with read, write, init_read or init_write) has completed, and wait() returns only then.", "quantifier": "every history of operations, completions and resets", "why_tests_cant": "depends on scheduling between initiation and task start", "anchors": ["cocotbext/axi/axi_master.py: idle, wait, init_write, write", "cocotbext/axi/axil_master.py", "cocotbext/axi/apb.py"]}
{"id": "C32", "title": "Reset completes every outstanding operation", "statement": "When reset is asserted every operation whose request was queued and not yet completed is completed with None, no operation hangs and none is completed after it already completed.", "quantifier": "every history and every point of reset assertion", "why_tests_cant": "every crash point in the pipeline", "anchors": ["cocotbext/axi/axi_master.py: _handle_reset, TagContext._flush", "cocotbext/axi/axil_master.py: _handle_reset", "cocotbext/axi/apb.py: ApbMaster._handle_reset, ApbMaster._run"]}
{"id": "C33", "title": "AXI-Lite master write/read against the AXI-Lite slave is exact", "statement": "AxiLiteMaster.write changes exactly the requested bytes of AxiLiteSlave's target and read returns exactly the target's bytes, for unaligned and multi-word accesses, with OKAY.", "quantifier": "every address, data, length, bus width and memory content", "why_tests_cant": "unbounded alignment/length/width", "anchors": ["cocotbext/axi/axil_master.py: _process_write, _process_read, _process_read_resp", "cocotbext/axi/axil_slave.py"]}
{"id": "C34", "title": "AXI-Lite responses are attributed in order", "statement": "Each AXI-Lite operation completes with exactly the responses to its own words, in order, for every scheduling of the issue and response tasks.", "quantifier": "every sequence of operations, response codes and schedules", "why_tests_cant": "unbounded interleavings", "anchors": ["cocotbext/axi/axil_master.py: _process_write, _process_write_resp, _process_read_resp"]}
{"id": "C35", "title": "APB master operations against the APB slave are exact under every pause schedule", "statement": "For every pattern of pause on master and slave, when an ApbMaster write/read completes the target was changed exactly at the requested bytes, respectively the returned data are the target's bytes, each bus word was accessed exactly once, and it completes once pauses are finite.", "quantifier": "every address, data, width, and every infinite pause schedule on either side", "why_tests_cant": "infinitely many pause schedules", "anchors": ["cocotbext/axi/apb.py: ApbMaster._run, ApbSlave._run"]}
{"id": "C36", "title": "APB master obeys the APB protocol", "statement": "penable is only asserted after at least one cycle of psel, psel/paddr/pwrite/pwdata/pstrb are stable from setup until the cycle where pready is sampled with penable.", "quantifier": "every command, every pready behaviour and pause schedule", "why_tests_cant": "all slave timings", "anchors": ["cocotbext/axi/apb.py: ApbMaster._run"]}
{"id": "C37", "title": "Stream sources keep valid and payload stable until accepted", "statement": "Once a StreamSource/AxiStreamSource asserts valid, valid and all payload signals keep their values until a clock edge samples ready high (absent reset).", "quantifier": "every history of sends, pauses, ready patterns", "why_tests_cant": "infinitely many ready patterns", "anchors": ["cocotbext/axi/stream.py: StreamSource._run", "cocotbext/axi/axis.py: AxiStreamSource._run"]}
{"id": "C38", "title": "A stream channel delivers every item exactly once and in order", "statement": "For a StreamSource connected to a StreamSink, at every moment the items sent equal the items received, then those in the sink queue, the one on the wires, and those still queued, in order: nothing is lost, duplicated or reordered.", "quantifier": "every history of send, recv, pause changes on either side and clock edges, with any queue limits", "why_tests_cant": "infinitely many schedules including sleep/wake-up races", "anchors": ["cocotbext/axi/stream.py: StreamSource, StreamSink"]}
{"id": "C39", "title": "Sink back-pressure bounds the queue", "statement": "A StreamSink with queue_occupancy_limit L>0 never holds more than L items; an AxiStreamSink with queue_occupancy_limit_frames L>0 never holds more than L+1 frames, and that bound is reached.", "quantifier": "every history", "why_tests_cant": "unbounded histories", "anchors": ["cocotbext/axi/stream.py: StreamSink.full", "cocotbext/axi/axis.py: AxiStreamSink.full"]}
{"id": "C40", "title": "A sink that can accept data asserts ready", "statement": "If a sink is not paused and its queue is below the limit, ready is asserted after a bounded number of clock edges, after any history including clear().", "quantifier": "every history of recv, clear, pause changes and valid patterns", "why_tests_cant": "lost wake-ups appear only under specific histories", "anchors": ["cocotbext/axi/stream.py: StreamSink._run, StreamBase.clear", "cocotbext/axi/axis.py: AxiStreamSink._run, AxiStreamBase.clear"]}
{"id": "C41", "title": "Monitors observe every transfer exactly once", "statement": "StreamMonitor/AxiStreamMonitor record exactly the payloads at clock edges where valid and ready are both high, for arbitrary signal activity between edges, despite sleeping on wake events.", "quantifier": "every sequence of valid/ready/payload values", "why_tests_cant": "infinitely many waveforms", "anchors": ["cocotbext/axi/stream.py: StreamMonitor._run", "cocotbext/axi/axis.py: AxiStreamMonitor._run"]}
{"id": "C42", "title": "Source wait()/idle() mean everything was transferred", "statement": "StreamSource.wait() returns (idle_event set) and idle() is true only if every item sent so far has been accepted by the receiver (absent clear() and reset).", "quantifier": "every history", "why_tests_cant": "depends on schedules", "anchors": ["cocotbext/axi/stream.py: StreamSource.wait, idle, _run"]}
{"id": "C43", "title": "normalize/compact of AXI stream frames", "statement": "normalize() makes all sidebands exactly len(tdata) long, extending with the last element (defaults 1/0); compact() keeps exactly the bytes with tkeep=1 with their sidebands in order and collapses constant sidebands to scalars; both are idempotent in the documented sense.", "quantifier": "every frame", "why_tests_cant": "unbounded frame contents", "anchors": ["cocotbext/axi/axis.py: AxiStreamFrame.normalize, AxiStreamFrame.compact"]}
{"id": "C44", "title": "AXI stream segmentation and reassembly round-trip", "statement": "The beats driven for a frame, sampled by a sink on the same bus (tkeep and tlast present), reassemble after compact() to exactly the kept bytes of the frame, with tid/tdest/tuser equal to the sent per-frame values; the received frame compares equal to the sent one.", "quantifier": "every frame content, byte size, lane count", "why_tests_cant": "unbounded frame lengths and widths", "anchors": ["cocotbext/axi/axis.py: AxiStreamSource._run, AxiStreamSink._run, AxiStreamFrame.__eq__"]}
{"id": "C45", "title": "AXI stream frames are delivered exactly once and in order under every pause schedule", "statement": "For AxiStreamSource connected to AxiStreamSink, for every history of send/recv/pause/clock edges the received frames are a prefix of the sent (non-empty) frames.", "quantifier": "every history", "why_tests_cant": "infinitely many schedules", "anchors": ["cocotbext/axi/axis.py: AxiStreamSource._run, AxiStreamSink._run"]}
{"id": "C46", "title": "tx_complete fires exactly once per sent frame", "statement": "Every frame handed to AxiStreamSource.send has its tx_complete triggered exactly once (when its last beat is driven, or when dropped by clear() or reset).", "quantifier": "every history of send/clear/reset/pause/clock edges, every frame", "why_tests_cant": "depends on histories and on degenerate frames", "anchors": ["cocotbext/axi/axis.py: AxiStreamSource._run, AxiStreamBase.clear, AxiStreamSource._handle_reset"]}
{"id": "C47", "title": "Queue occupancy counters are exact", "statement": "queue_occupancy_frames and queue_occupancy_bytes always equal the number of frames and total bytes in the queue.", "quantifier": "every history of send/recv/clear/reset/clock edges", "why_tests_cant": "unbounded histories", "anchors": ["cocotbext/axi/axis.py: AxiStreamBase.clear, AxiStreamSource.send, AxiStreamMonitor._recv"]}
{"id": "C48", "title": "Frame comparison", "statement": "AxiStreamFrame == is reflexive and symmetric, ignores sidebands that are None on either side, and treats a scalar sideband as equal to a constant list.", "quantifier": "every pair of frames", "why_tests_cant": "unbounded frame contents", "anchors": ["cocotbext/axi/axis.py: AxiStreamFrame.__eq__"]}
{"id": "C49", "title": "Byte-stream reads lose nothing", "statement": "The concatenation of all AxiStreamSink.read/read_nowait results, followed by what is still buffered, is the concatenation of the kept data of all frames received, in order.", "quantifier": "every history of frame arrivals and reads of any count", "why_tests_cant": "unbounded histories", "anchors": ["cocotbext/axi/axis.py: AxiStreamMonitor.read, read_nowait, _recv"]}
{"id": "C50", "title": "Reset state tracking", "statement": "After any history of assert_reset calls and reset-signal edges (including X), the component is in reset iff the local or external reset is asserted, and the reset handler is invoked exactly at changes, alternating.", "quantifier": "every history", "why_tests_cant": "unbounded histories", "anchors": ["cocotbext/axi/reset.py: Reset"]}
{"id": "C51", "title": "define_stream separates handshake and payload signals", "statement": "For signal lists that contain their handshake signals, define_stream yields payload signals equal to all signals minus valid/ready in order, and a bus containing every declared signal.", "quantifier": "every signal list", "why_tests_cant": "user-defined streams", "anchors": ["cocotbext/axi/stream.py: define_stream"]}
{"id": "C52", "title": "The AXI write path is schedule independent end to end", "statement": "For any sequence of writes issued to an AxiMaster connected to an AxiSlave/AxiRam through the five queues, under every scheduling of all tasks and any channel back-pressure: the sequence of target updates is that of the operations in issue order, each operation completes exactly once with OKAY after its last byte was written, and when the system is quiescent all operations have completed.", "quantifier": "every operation sequence and every interleaving", "why_tests_cant": "infinitely many schedules", "anchors": ["cocotbext/axi/axi_master.py", "cocotbext/axi/axi_slave.py", "cocotbext/axi/stream.py"]}
{"id": "C53", "title": "Registering a window as a region leaves the window itself alone", "statement": "A Window created on a memory keeps denoting the same bytes of that memory after it has been registered as a region of an AddressSpace.", "quantifier": "every memory, window and address space", "why_tests_cant": "needs a window that is used both directly and through a space", "anchors": ["cocotbext/axi/address_space.py: AddressSpace.register_region, Window._read, Window._write"]}
{"id": "C54", "title": "The AXI read path is schedule independent end to end", "statement": "For any sequence of reads issued to an AxiMaster connected to an AxiSlave through the channel queues, under every scheduling of all tasks, any back-pressure and whatever others do to the slave's target: the target is called once for each container of 2^size bytes that a range touches, in ascending order and in issue order; each read completes exactly once with the bytes as these calls returned them and SLVERR exactly if one of them raised; when nothing can run everything has completed.", "quantifier": "every operation sequence, target, interleaving and interference", "why_tests_cant": "infinitely many schedules and targets", "anchors": ["cocotbext/axi/axi_master.py: AxiMasterRead", "cocotbext/axi/axi_slave.py: AxiSlaveRead", "cocotbext/axi/stream.py"]}
{"id": "C55", "title": "Reads and writes on one AxiRam are consistent", "statement": "AxiMaster connected to AxiSlave/AxiRam, reads and writes in flight together: every byte a read returns is the memory's content at some moment while the read was in flight; bytes of one beat are read at the same moment and reads in issue order; a read started after a write completed sees that write and all writes issued before it; a read completed before a write started does not see it; if all writes to the cells read were completed, exactly the last written bytes are returned.", "quantifier": "every operation sequence and every interleaving of both paths", "why_tests_cant": "depends on the relative timing of five channels and all tasks", "anchors": ["cocotbext/axi/axi_master.py: AxiMaster", "cocotbext/axi/axi_slave.py: AxiSlave", "cocotbext/axi/axi_ram.py: AxiRam", "cocotbext/axi/stream.py"]}
{"id": "C56", "title": "The AXI-Lite write path is schedule independent end to end", "statement": "For any sequence of writes issued to an AxiLiteMaster connected to an AxiLiteSlave/AxiLiteRam through the channel queues, under every scheduling of all tasks, any back-pressure and whatever others do to the slave's target: the target is called once for each contiguous strobed part of each bus word, in ascending order and in issue order; each write completes exactly once and in issue order, after its last call, with SLVERR exactly if one of its calls raised; when nothing can run everything has completed. On AxiLiteRam the memory always is the initial one with a prefix of the written bytes in issue order.", "quantifier": "every operation sequence, target, interleaving and interference", "why_tests_cant": "infinitely many schedules and targets", "anchors": ["cocotbext/axi/axil_master.py: AxiLiteMasterWrite", "cocotbext/axi/axil_slave.py: AxiLiteSlaveWrite", "cocotbext/axi/axil_ram.py", "cocotbext/axi/stream.py"]}
{"id": "C57", "title": "The AXI-Lite read path is schedule independent end to end", "statement": "For any sequence of reads issued to an AxiLiteMaster connected to an AxiLiteSlave through the channel queues, under every scheduling of all tasks, any back-pressure and whatever others do to the slave's target: the target is called once for each bus word that a range touches, in ascending order and in issue order; each read completes exactly once and in issue order with the bytes as these calls returned them and SLVERR exactly if one of them raised; when nothing can run everything has completed.", "quantifier": "every operation sequence, target, interleaving and interference", "why_tests_cant": "infinitely many schedules and targets", "anchors": ["cocotbext/axi/axil_master.py: AxiLiteMasterRead", "cocotbext/axi/axil_slave.py: AxiLiteSlaveRead", "cocotbext/axi/stream.py"]}
{"id": "C58", "title": "Reads and writes on one AxiLiteRam are consistent", "statement": "AxiLiteMaster connected to AxiLiteSlave/AxiLiteRam, reads and writes in flight together: every byte a read returns is the memory's content at some moment while the read was in flight; bytes of one bus word are read at the same moment and reads in issue order; a read started after a write completed sees that write; a read completed before a write started does not see it; if all writes to the cells read were completed, exactly the last written bytes are returned.", "quantifier": "every operation sequence and every interleaving of both paths", "why_tests_cant": "depends on the relative timing of five channels and all tasks", "anchors": ["cocotbext/axi/axil_master.py: AxiLiteMaster", "cocotbext/axi/axil_slave.py: AxiLiteSlave", "cocotbext/axi/axil_ram.py: AxiLiteRam", "cocotbext/axi/stream.py"]}
{"id": "C59", "title": "Every AXI-Lite operation completes if nobody is starved", "statement": "AxiLiteMaster connected to AxiLiteSlave: whatever was issued and however far it got, if from then on every task runs again and again and no channel is paused for ever, then after finitely many steps exactly the operations issued have completed, the target calls of each were made in issue order, and the master reports idle. Nothing can deadlock, nothing is lost or completed twice.", "quantifier": "every history of operations, target, interference and every fair infinite schedule", "why_tests_cant": "absence of deadlock cannot be observed in finitely many runs", "anchors": ["cocotbext/axi/axil_master.py", "cocotbext/axi/axil_slave.py", "cocotbext/axi/stream.py"]}
{"id": "C60", "title": "Every AXI operation completes if nobody is starved", "statement": "AxiMaster connected to AxiSlave: whatever was issued on whatever IDs and however far it got, if from then on every task runs again and again and no channel is paused for ever, then after finitely many steps exactly the operations issued have completed, those of each ID in issue order, no assertion failed, and the master reports idle.", "quantifier": "every history of operations and IDs, target, interference and every fair infinite schedule", "why_tests_cant": "absence of deadlock cannot be observed in finitely many runs", "anchors": ["cocotbext/axi/axi_master.py", "cocotbext/axi/axi_slave.py", "cocotbext/axi/stream.py"]}
{"id": "C61", "title": "A paused APB master or slave makes no progress and breaks off nothing", "statement": "After a clock edge at which an ApbMaster is paused, psel is asserted exactly if a transfer was in progress that this edge did not end, with unchanged transfer signals: no transfer starts and none is broken off. After a clock edge at which an ApbSlave is paused pready is low, and its target was neither read nor written at that edge.", "quantifier": "every history of calls, resets, pauses and slave behaviour before the edge", "why_tests_cant": "all states of both machines and all pause patterns", "anchors": ["cocotbext/axi/apb.py: ApbPause, ApbMaster._run, ApbSlave._run"]}
{"id": "C62", "title": "With the real clocked channels a master and a slave do only what the queue level allows", "statement": "AxiMaster connected to AxiSlave, AxiLiteMaster connected to AxiLiteSlave, every channel being a clocked StreamSource and StreamSink with valid/ready signals, sleeping and waking: whatever the order of task steps, clock edges and loop passes, and whichever source or sink is paused or resumed when, the starts and completions with their responses, the states of master and slave and the target calls are those of a run over plain queues. So C52 and C54-C58 hold of the clocked system; in particular a read of an AxiRam or AxiLiteRam issued after all overlapping writes completed returns the bytes written.", "quantifier": "every history of calls, task steps, clock edges and pauses", "why_tests_cant": "the state space of five clocked channels with sleeping tasks is unbounded", "anchors": ["cocotbext/axi/axi_master.py", "cocotbext/axi/axi_slave.py", "cocotbext/axi/axil_master.py", "cocotbext/axi/axil_slave.py", "cocotbext/axi/stream.py: StreamSource._run, StreamMonitor._run_valid_monitor, StreamSink._run"]}
{"id": "C63", "title": "With the real clocked channels every operation completes, no wake-up is lost", "statement": "The systems of C62: whatever was issued, however far it got and however the channels were paused, if from then on every task runs again and again and on every channel again and again three consecutive clock edges find source and sink unpaused (for instance because the clock goes on and pauses come to an end), then after finitely many steps exactly the operations issued have completed with the results of C59/C60 and the masters report idle. No source or sink sleeps for ever on something that could move.", "quantifier": "every history, target, interference and every fair infinite clocked schedule", "why_tests_cant": "a lost wake-up shows in rare orders of tasks only, and absence of deadlock cannot be observed in finitely many runs", "anchors": ["cocotbext/axi/axi_master.py", "cocotbext/axi/axi_slave.py", "cocotbext/axi/axil_master.py", "cocotbext/axi/axil_slave.py", "cocotbext/axi/stream.py: StreamSource._run, StreamMonitor._run_valid_monitor, StreamSink._run"]}
{"id": "C64", "title": "A reset in the middle of AXI-Lite traffic leaves no trace but the memory", "statement": "AxiLiteMaster connected to AxiLiteSlave over clocked channels, all on one reset, which may be asserted and released at any moment, any number of times: when it is asserted every operation started so far has completed, exactly once with its responses or with None and never both, and the master is idle; the target keeps its content; during reset nothing is on the wires or in a queue. From then on the system does nothing that a freshly built one on the same target could not do (calls made during reset, and init_ calls whose task had not run, are served after release): no transfer or response from before the reset shows up, reads return what was written, and everything completes under fair clocks.", "quantifier": "every history of calls, task steps, clock edges, pauses and resets before, every history after", "why_tests_cant": "the reset may hit any of the unboundedly many states of master, slave and three channels", "anchors": ["cocotbext/axi/axil_master.py: _handle_reset", "cocotbext/axi/axil_slave.py: _handle_reset", "cocotbext/axi/stream.py: StreamBase.clear, _handle_reset", "cocotbext/axi/reset.py"]}
{"id": "C65", "title": "A reset in the middle of AXI traffic leaves no trace but the memory", "statement": "AxiMaster connected to AxiSlave or AxiRam over clocked channels, all on one reset, which may be asserted and released at any moment, any number of times: when it is asserted the operations started so far are those completed with their responses and those completed with None, each once, and the master is idle; the target keeps its content; during reset nothing is on the wires or in a queue. From then on the system does nothing that a freshly built one on the same target could not do, although the context tasks of the tag managers are those left over from before: no burst, beat or response from before the reset shows up under any ID, reads return what was written, and everything completes under fair clocks.", "quantifier": "every history of calls, task steps, clock edges, pauses and resets before, every history after, any numbers of IDs", "why_tests_cant": "the reset may hit any of the unboundedly many states of master, tag managers, slave and three channels, and which contexts are left over depends on the whole history", "anchors": ["cocotbext/axi/axi_master.py: TagContextManager.flush, _handle_reset", "cocotbext/axi/axi_slave.py: _handle_reset", "cocotbext/axi/stream.py: StreamBase.clear, _handle_reset", "cocotbext/axi/reset.py"]}
{"id": "C66", "title": "A reset in the middle of AXI stream traffic costs exactly the frame being sent", "statement": "AxiStreamSource, AxiStreamSink and AxiStreamMonitor on one bus, clock and reset, which may be asserted and released at any moment, any number of times: every non-empty frame sent either arrived whole, in order and once, or is lost, or is still at the source; nothing else arrives, no part of a frame from before a reset is joined to one from after it. Lost are exactly the frame being sent when a reset starts and the frames queued when the source is cleared. The monitor reports exactly the frames that the sink receives. Once the reset is released and nobody is paused everything still at the source is delivered.", "quantifier": "every history of sends, receives, byte reads, pauses, limits, clears, clock edges and resets; every bus width", "why_tests_cant": "the reset may hit any beat of any frame with any queue contents; which frames may be lost depends on the whole history", "anchors": ["cocotbext/axi/axis.py: AxiStreamBase._handle_reset, clear", "cocotbext/axi/axis.py: AxiStreamSource._handle_reset, _run", "cocotbext/axi/axis.py: AxiStreamSink._handle_reset, _run", "cocotbext/axi/axis.py: AxiStreamMonitor._run", "cocotbext/axi/reset.py"]}
{"id": "C67", "title": "wait() of a receiver returns iff something was received; idle() tells a frame in progress", "statement": "Stream and AXI stream sinks and monitors: calls of wait() (without timeout) return in the order made; a call blocks only while the queue is empty, never once an item or frame is there, and returns only with one in the queue - whatever was received, read, cleared or reset in between. idle() of an AXI stream sink or monitor is false whenever a frame is partly received, and after a clock edge without a transfer it is true if none is.", "quantifier": "every history of transfers, receives, byte reads, clears, pauses, limits, resets, clock edges and calls of wait()", "why_tests_cant": "the event and the flag are kept apart from the queue and must agree with it after every order of operations", "anchors": ["cocotbext/axi/stream.py: StreamMonitor._recv, wait, StreamBase.clear", "cocotbext/axi/axis.py: AxiStreamMonitor._recv, read_nowait, idle, wait, _run", "cocotbext/axi/axis.py: AxiStreamSink._run", "cocotbext/axi/axis.py: AxiStreamBase.clear, _handle_reset"]}
{"id": "C68", "title": "Blocking send() with concurrent callers: exactly once, within the limit, never stuck", "statement": "Any number of tasks call send() of one StreamSource or AxiStreamSource whose queue limit is set: every call puts its item exactly once, in the order of the calls; a call waits only while the queue is full; the queue does not exceed the limit; whatever takes an item off the queue (a transfer, clear()) wakes all calls that wait. If the other side is ready again and again and the source is not paused or in reset, every call completes and every item is transferred, whatever happened before.", "quantifier": "every history of calls, clock edges, pauses, clears and resets, any number of concurrent calls, every order in which woken calls run, every fair schedule", "why_tests_cant": "a lost wake-up shows only in rare orders of callers and clock edges; completion cannot be observed in finitely many runs", "anchors": ["cocotbext/axi/stream.py: StreamSource.send, full, _run, StreamBase.clear", "cocotbext/axi/axis.py: AxiStreamSource.send, full, _run, AxiStreamBase.clear"]}
{"id": "C69", "title": "A reset in the middle of APB traffic leaves no trace but the memory", "statement": "ApbMaster connected to ApbSlave or ApbRam on one reset, which may be asserted and released at any moment, any number of times: while it is asserted psel, penable and pready are low and the target is not touched. What a reset leaves in the memory are the completed operations and a prefix of the bytes of the one being served; the operations outstanding complete with None (unless the master's task is just taking one from its queue), and the master is idle. From then on everything is as with a freshly built system on the same target: operations called since the reset, also those called during it, are served in order with the results they have on that memory, nothing of an interrupted operation shows up, and all of them complete after release once nobody pauses.", "quantifier": "every history of calls, clock edges, pauses and resets before, every history after, every target", "why_tests_cant": "the reset may hit any word of any operation with any queue and pause state", "anchors": ["cocotbext/axi/apb.py: ApbMaster._handle_reset, _run", "cocotbext/axi/apb.py: ApbSlave._handle_reset, _run", "cocotbext/axi/reset.py"]}
{"id": "C70", "title": "wait() of the masters returns when, and only when, the outstanding operations are complete", "statement": "AxiMaster, AxiLiteMaster and ApbMaster with any number of concurrent calls of wait(), wait_read(), wait_write(): a call returns only at a moment at which every operation queued so far in the direction(s) it waits for has its result or was flushed by a reset; a call made at such a moment returns without waiting; whenever such a moment comes, every pending call concerned has been woken and returns when it next runs, so no wake-up is lost although the two halves signal separately; a call that runs at another moment goes back to sleep instead of spinning; every call returns at most once and none disappears.", "quantifier": "every history of operations, responses, resets and calls of wait, every interleaving of the calls with the tasks of the master", "why_tests_cant": "the number of waiters and the interleaving of the two halves' completion events with the waiters' loop are unbounded", "anchors": ["cocotbext/axi/axi_master.py: AxiMaster.wait, wait_read, wait_write, AxiMasterWrite.wait, AxiMasterRead.wait", "cocotbext/axi/axil_master.py: AxiLiteMaster.wait, ...", "cocotbext/axi/apb.py: ApbMaster.wait"]}
{"id": "C71", "title": "A bus slave on an address space is memory where regions are, and fails cleanly where none are", "statement": "AxiSlave, AxiLiteSlave and ApbSlave with an AddressSpace, window, pool or region as target (nested spaces, shared regions and aliases included): over a range in which every address belongs to a memory the master sees one byte memory (two addresses alias exactly if they are the same byte of the same memory), with the guarantees of C55, C58 and C35 for concurrent reads and writes; over a range with holes made of whole bus words, a write returns SLVERR exactly if it covers an address that belongs to no region, its other bytes are written all the same, in issue order, nothing else changes, and later operations are not affected; a read returns SLVERR exactly if it covers such an address, and delivers the memory's bytes for the mapped addresses and 0 for the others. With APB the same, but without pslverr errors are reported as OKAY. Reads of mapped addresses return OKAY even if a hole is not a whole bus word.", "quantifier": "every reachable heap of spaces, regions and windows, every bus width, range and set of holes, every sequence of operations and every schedule of master, channels and slave", "why_tests_cant": "the combinations of region layouts, bursts that straddle regions and holes, and schedules are unbounded", "anchors": ["cocotbext/axi/axi_slave.py: AxiSlaveWrite._write, _process_write, AxiSlaveRead._read, _process_read", "cocotbext/axi/axil_slave.py", "cocotbext/axi/apb.py: ApbSlave", "cocotbext/axi/address_space.py: AddressSpace.read, write, Window, Pool"]}
{"id": "C72", "title": "A master is a memory: word and byte accessors, regions of address spaces, buses behind buses", "statement": "AxiMaster, AxiLiteMaster and ApbMaster are memory interfaces of 2**address_width bytes: read() and write() (default arguments) accept exactly the ranges inside and raise ValueError otherwise without bus traffic; an accepted call returns as many bytes as asked for; with a slave whose target stores bytes, what write(), write_words(), write_byte() stored is what read(), read_words(), read_byte() return, and nothing else changes. A master registered as a region of an address space is indistinguishable, by every call of the address space API, from a MemoryRegion with the content of the memory behind the bus; so a slave of a further bus may have such a space as target, to any depth and mix of buses and widths, with the guarantees of C55, C58, C35 and C71. A master may also be the target of a slave directly. An access that fails on the bus raises, as an access to an unmapped address of a space does.", "quantifier": "every target, bus kind, width, address, data and length, every history of API calls on every heap with any number of masters in it, every chain of buses", "why_tests_cant": "the combinations of buses, widths, region layouts and alignments are unbounded", "anchors": ["cocotbext/axi/address_space.py: MemoryInterface.read_words ... write_qword, create_window, Region, AddressSpace.register_region, read, write", "cocotbext/axi/axi_master.py: AxiMaster.read, write, AxiMasterWrite.write, AxiMasterRead.read", "cocotbext/axi/axil_master.py: AxiLiteMaster", "cocotbext/axi/apb.py: ApbMaster.read, write", "cocotbext/axi/axil_slave.py: AxiLiteSlaveRead._process_read"]}
{"id": "C73", "title": "Blocking recv() and read() with concurrent callers: exactly once, in order, no lost wake-up", "statement": "Any number of tasks call recv(), recv_nowait(), read(count), read_nowait(count) of one StreamMonitor, StreamSink, AxiStreamMonitor or AxiStreamSink: every item that arrives is taken by exactly one call, in order of arrival, unless clear() removes it; QueueEmpty is raised only when nothing is there; every call returns exactly once or is pending; recv() returns the item it took (frames compacted on request), concurrent reads return the bytes of the frames they take in order, none lost or doubled, count of them if there are so many; once the calls that were woken have run there is no waiting call or no item. Calls are served in the order in which they were made, and read() returns as soon as there is an unread byte.", "quantifier": "every history of arrivals, pauses, resets, clears and calls, any number of concurrent calls, every order in which woken calls run, every choice of the call that is woken", "why_tests_cant": "lost or doubled items and lost wake-ups show only in rare interleavings of callers with arrivals", "anchors": ["cocotbext/axi/stream.py: StreamMonitor.recv, recv_nowait, _recv", "cocotbext/axi/axis.py: AxiStreamMonitor.recv, recv_nowait, read, read_nowait, _recv"]}
{"id": "C74", "title": "A pause generator is followed cycle by cycle", "statement": "set_pause_generator(g) on a StreamSource, StreamSink, AxiStreamSource, AxiStreamSink, ApbMaster or ApbSlave (and on every channel of the AXI components): the n-th clock edge from then on finds pause at the value number n of g (or number n+1, if the task of the generator runs first at that edge), whatever happens to the component in the meantime and whatever generators it had before: a replaced generator never assigns again. When g is exhausted its last value stays. An assignment of the user to pause holds until the next edge, then the generator has its way. After clear_pause_generator() nobody but the user changes pause, and a component that was paused by the generator goes on.", "quantifier": "every generator (also infinite ones), every history of calls, edges, resets and generators before and during, every order of the tasks at an edge", "why_tests_cant": "generators are arbitrary, and stale tasks of replaced generators show only in particular interleavings", "anchors": ["cocotbext/axi/stream.py: StreamPause", "cocotbext/axi/axis.py: AxiStreamPause, AxiStreamSource._run, AxiStreamSink._run", "cocotbext/axi/apb.py: ApbPause"]}
{"id": "C75", "title": "One transfer per clock cycle, and none in a pause", "statement": "A StreamSource connected to a StreamSink, or an AxiStreamSource to an AxiStreamSink (sink without limits): whenever at a clock edge there is something to transfer next (an item offered and not accepted, the rest of the frame, or the next item or non-empty frame in the queue) and source and sink are not paused (the sink not since the previous edge), a transfer happens at the next edge; so over any history the number of transfers is at least the number of such edges, up to one transfer still on its way, and n items (frames of n beats together) sent without pauses take n+1 clock cycles. A paused source that has an item accepted offers no other one, a sink paused for a whole cycle takes nothing at the next edge; so there are never more transfers than edges at which the source is not paused, or before which the sink is not paused all the time.", "quantifier": "every history of sends, receives, clears, pauses, limits of the source and clock edges, every item, frame and bus width", "why_tests_cant": "lost cycles occur for particular combinations of pauses, wake-ups and frame ends", "anchors": ["cocotbext/axi/stream.py: StreamSource._run, StreamSink._run", "cocotbext/axi/axis.py: AxiStreamSource._run, AxiStreamSink._run"]}
{"id": "C76", "title": "Several memory interfaces on one memory: the ports see each other's writes and disturb nothing else", "statement": "Any number of AxiRam and AxiLiteRam (or AxiSlave and AxiLiteSlave with targets on one memory), each with its own master, are given the same memory, which is also accessed directly; all ports run concurrently with outstanding operations. There is one memory: each step of a port changes it by bytes of that port's own writes, in issue order, all of a write's bytes between its issue and its completion; a direct access takes effect at once; every byte that a read of any port returns is the byte in the memory at a moment between issue and completion of the read, the moments in the order of the reads and addresses; all operations in range return OKAY, and those of a port whose tasks have nothing to do have returned, whatever the others do. So what a completed write of one port has left at an address, every later read of every port returns, also through aliases, until somebody writes there again.", "quantifier": "every number and mix of ports and bus widths, every history of operations and direct accesses, every schedule of the tasks and channels of all ports", "why_tests_cant": "the interleavings of the ports, each with several operations under way, are unbounded", "anchors": ["README.md: multi-port memories", "cocotbext/axi/memory.py: Memory.__init__, read, write", "cocotbext/axi/axi_ram.py: AxiRam.__init__", "cocotbext/axi/axil_ram.py: AxiLiteRam.__init__", "cocotbext/axi/axi_slave.py", "cocotbext/axi/axil_slave.py"]}
{"id": "C77", "title": "A frame handed to AxiStreamSource.send() may be changed, reused and sent again at once", "statement": "AxiStreamSource.send(f), send_nowait, write and write_nowait take the content that f has at the moment of the call. Whatever the program does afterwards to f, to the lists that f was made of or shares with other frames (the constructor keeps tkeep, tid, tdest and tuser lists by reference), or to frames given back by tx_complete, changes neither the signals nor the completions nor any other frame under way; the same frame object may be sent any number of times. tx_complete gives a frame object that nobody else holds; it shows what was sent, normalized if transmission had begun.", "quantifier": "every program that builds, shares, changes and sends lists and frames, every sequence of pauses, clears, resets, back pressure and clock edges between its steps", "why_tests_cant": "aliasing between frame objects depends on the whole history of the program; tests send fresh frames", "anchors": ["cocotbext/axi/axis.py: AxiStreamFrame.__init__, normalize, handle_tx_complete", "cocotbext/axi/axis.py: AxiStreamSource.send, send_nowait, write, write_nowait, _run, _handle_reset", "cocotbext/axi/axis.py: AxiStreamBase.clear"]}
{"id": "C78", "title": "Time stamps of AXI stream frames", "statement": "On a link with AxiStreamSource, AxiStreamSink and AxiStreamMonitor, sim_time_start and sim_time_end of every received frame, at the sink and at the monitor, are the times of the clock edges of its first and its last transfer (on a bus without tlast, of its only transfer), whatever pauses, back pressure, reads, clears and resets came between. For frames given back by the source (tx_complete) sim_time_end is the edge at which the last beat was put on the wires (None if the frame was cleared or flushed), and sim_time_start is not later than the edge of the first beat, equal to it if the source is never paused; without resets, on a bus with tlast, both are strictly before the stamps of the same frame at the receiver, so latencies computed from them are positive.", "quantifier": "every sequence of sends, pauses, limits, receives, reads, clears, resets and clock edges at increasing times, every width, with or without tready and tlast", "why_tests_cant": "the stamps of a frame depend on the whole history of both sides; tests do not look at them", "anchors": ["cocotbext/axi/axis.py: AxiStreamFrame.sim_time_start, sim_time_end", "cocotbext/axi/axis.py: AxiStreamSource._run, _handle_reset", "cocotbext/axi/axis.py: AxiStreamMonitor._run", "cocotbext/axi/axis.py: AxiStreamSink._run", "cocotbext/axi/axis.py: AxiStreamBase.clear", "README.md: AxiStreamFrame object"]}
{"id": "C79", "title": "Which bus geometries the constructors accept, and what they make of them", "statement": "For positive widths and arguments: an AxiStreamSource, AxiStreamSink or AxiStreamMonitor that is constructed has at least one byte lane and one bit per byte, lanes times byte size is the width of tdata, there is one lane per bit of tkeep if connected, and byte_lanes and (if it divides the width) byte_size are obeyed, with bytes of 8 bits by default if 8 divides the width; giving both arguments, or either together with tkeep, raises, and so does a tkeep or byte_lanes that does not divide the width. (A byte_size that does not divide the width is not always refused.) Memory-mapped endpoints are constructed exactly if the data width is a multiple of 8, the strobes are one per byte and (AXI) the ID widths agree; on the data widths of the AXI standard every burst size that a call accepts or chooses is at most one bus word, a power of two.", "quantifier": "every width of every signal, every presence of optional signals, every positive value of the arguments", "why_tests_cant": "the endpoints are instantiated in tests on a handful of widths only, all accepted", "anchors": ["cocotbext/axi/axis.py: AxiStreamBase.__init__", "cocotbext/axi/axi_master.py: AxiMasterWrite.__init__, AxiMasterRead.__init__", "cocotbext/axi/axi_slave.py: AxiSlaveWrite.__init__, AxiSlaveRead.__init__", "cocotbext/axi/axil_master.py: AxiLiteMasterWrite.__init__, AxiLiteMasterRead.__init__", "cocotbext/axi/axil_slave.py: AxiLiteSlaveWrite.__init__, AxiLiteSlaveRead.__init__", "cocotbext/axi/apb.py: ApbMaster.__init__, ApbSlave.__init__"]}
{"id": "C80", "title": "Buses without wstrb: writes are zero-padded to bus words", "statement": "On an AXI or AXI-Lite bus without the optional wstrb signal, a write with beats of full width stores its bytes, stores zeros in the rest of the bus words that it touches, leaves all other words of the target alone and is answered with OKAY; writes of whole aligned bus words are exact, as with strobes. With narrow beats the last beat in each bus word decides about all bytes of the word.", "quantifier": "every address, data, beat size and bus width, every burst split, every target that is a flat memory; RAMs in every reachable state", "why_tests_cant": "no test bench of the project leaves wstrb unconnected; the clobbered neighbours depend on address, length and beat size", "anchors": ["cocotbext/axi/axi_master.py: AxiMasterWrite._process_write", "cocotbext/axi/axi_slave.py: AxiSlaveWrite._process_write", "cocotbext/axi/axil_master.py: AxiLiteMasterWrite._process_write", "cocotbext/axi/axil_slave.py: AxiLiteSlaveWrite._process_write"]}
{"id": "C81", "title": "Every call ends once with its own result; events of init_write and init_read", "statement": "On the AXI, AXI-Lite and APB masters every accepted write(), read(), init_write() and init_read() queues exactly one operation and ends at most once: write() and read() return, init_* set the event they were given or made, with the result of their own operation (None if a reset ended it) and not before it completed, also when several calls share one event; no event is set without a call. Once the master is idle and no task is left to run, every call has ended. init_* raise exactly what write() and read() raise for the same arguments, and queue the same command.", "quantifier": "every order of calls, of task wake-ups by the scheduler, of answers from the bus and of resets; every argument", "why_tests_cant": "the order in which tasks run and events are set is up to the scheduler; tests await one event at a time and do not reset with calls open", "anchors": ["cocotbext/axi/axi_master.py: AxiMasterWrite.init_write, _write_wrapper, write", "cocotbext/axi/axi_master.py: AxiMasterRead.init_read, _read_wrapper, read", "cocotbext/axi/axil_master.py: AxiLiteMasterWrite.init_write, _write_wrapper, write", "cocotbext/axi/axil_master.py: AxiLiteMasterRead.init_read, _read_wrapper, read", "cocotbext/axi/apb.py: ApbMaster.init_write, init_read, _write_wrapper, _read_wrapper"]}
{"id": "C82", "title": "Concurrent reads and writes through address spaces", "statement": "When several tasks read and write through the same address spaces, windows and regions at once, each call accesses each byte of its range once, in order, at the memory the address decodes to, and nothing else; every byte a read returns is what that byte held at some moment during the call (the value at the call if nobody stored there meanwhile); every byte of a finished write is there unless a later access stored over it; bytes outside all written ranges keep their value; a call that is not interrupted is the plain read or write. A read across several regions is not atomic.", "quantifier": "every tree of regions, every number of calls, every interleaving of their accesses", "why_tests_cant": "the order in which awaiting tasks go on is up to the scheduler; tests run one access at a time", "anchors": ["cocotbext/axi/address_space.py: AddressSpace.read, AddressSpace.write", "cocotbext/axi/address_space.py: Window._read, Window._write", "cocotbext/axi/address_space.py: MemoryInterface.read, write", "cocotbext/axi/address_space.py: PeripheralRegion._read, _write"]}
{"id": "C83", "title": "Regions, memories and RAMs sharing a memory object", "statement": "Memory regions, Memory objects and RAMs given the same memory object (mem=) all access the same bytes at their own addresses: a write through one of them, or to the object itself, stores exactly its bytes in that object and nothing in any other, a read through any of them returns the bytes of the object, and after any history every byte is the one last stored there by a call that succeeded. A region refuses accesses outside its own size with ValueError and nothing is changed; making a region or a RAM changes no byte.", "quantifier": "every number of objects (mmap, bytearray, SparseMemory) and views, every history of calls", "why_tests_cant": "tests use a single memory with a single interface; aliasing shows up only in mixtures of calls through several of them", "anchors": ["cocotbext/axi/address_space.py: MemoryRegion.__init__, _read, _write, __getitem__, __setitem__, __len__", "cocotbext/axi/address_space.py: SparseMemoryRegion", "cocotbext/axi/memory.py: Memory.__init__, read, write", "cocotbext/axi/axi_ram.py: AxiRam.__init__, _read, _write"]}
{"id": "C84", "title": "APB on a memory that others use too", "statement": "While an ApbMaster works on an ApbSlave or ApbRam whose memory is also changed by others (another bus interface sharing it, or the program directly), the writes of the master store exactly their bytes, in the order of the calls, each after its call and before it returns; a read returns for every byte the content of the memory at a moment between its call and its return, the bytes of one bus word at the same moment; all return OKAY. So a byte written by a completed write is what later reads return as long as nobody else writes it, a byte stored by somebody else is what later reads return as long as the master does not write it, and everything completes whatever the others do.", "quantifier": "every bus width, every memory that stores bytes, every sequence of operations, pauses and accesses by others, at every moment", "why_tests_cant": "a test shows a few interleavings of an APB transfer with an access by somebody else; words of one operation can be separated by any number of other accesses", "anchors": ["cocotbext/axi/apb.py: ApbMaster.write, read, _run", "cocotbext/axi/apb.py: ApbSlave._run, ApbRam._write, _read", "cocotbext/axi/memory.py: Memory.__init__, read, write"]}
{"id": "C85", "title": "wait(timeout) of a receiver ends with the first item or when its time is over", "statement": "Stream and AXI stream sinks and monitors: a call of wait() with a timeout returns exactly once, at the moment the first item or frame is in the queue (at once if there is one), or exactly when the timeout is over if nothing was received until then - never later, and not earlier without an item; with timeout 0 it waits as long as nothing is received. Whether and how long others wait changes neither that nor what the receiver receives.", "quantifier": "every history of transfers, receives, byte reads, clears, pauses, limits, resets, clock edges, passing time and calls of wait() with any timeouts", "why_tests_cant": "which of the event and the timer ends a call, and what is left behind for other calls, depends on the order of all other operations and on times", "anchors": ["cocotbext/axi/stream.py: StreamMonitor.wait", "cocotbext/axi/axis.py: AxiStreamMonitor.wait"]}
{"id": "C86", "title": "APB slaves whose target takes time", "statement": "An ApbSlave whose reads and writes of the target block (for example on another bus) serves the operations of an ApbMaster as one with an immediate target does: the operations complete in the order of the calls, with the results and the final target state of performing them one after the other, also when accesses of the target raise; the next access of the target begins only after the one before is done; nothing is accessed twice or left out, however long the accesses take; and everything completes once the accesses do. pready is never asserted while an access is in progress, also with resets, and reset ends the access in progress: it has no later effect.", "quantifier": "every bus width, every target and every duration of each of its accesses, every interleaving with calls, pauses and clock edges", "why_tests_cant": "tests run against a memory that answers at once; when an access ends between or long after clock edges depends on the target", "anchors": ["cocotbext/axi/apb.py: ApbMaster._run", "cocotbext/axi/apb.py: ApbSlave._run"]}
{"id": "C87", "title": "AXI-Lite slaves whose target takes time", "statement": "An AxiLiteSlave whose writes of the target block serves the operations of an AxiLiteMaster as one with an immediate target does, also when others change the target between its accesses: the operations complete in the order of the calls, each with the responses of the words it wrote, every byte of an operation without errors is written once and in order, an operation that is complete has made all its accesses; on a memory used by nobody else its contents are those of writing the operations one after the other; and everything completes under every fair schedule. For the transfers of any master: each word leads to one access per run of strobed bytes, in order, up to the first one that raises, and to one response, SLVERR if one raised.", "quantifier": "every bus width, every target and every duration of each of its accesses, every interleaving with calls, transfers and changes of the target by others", "why_tests_cant": "tests run against a memory that answers at once", "anchors": ["cocotbext/axi/axil_master.py: AxiLiteMasterWrite", "cocotbext/axi/axil_slave.py: AxiLiteSlaveWrite._process_write"]}
{"id": "C88", "title": "AXI slaves whose target takes time", "statement": "An AxiSlave whose writes of the target block serves the operations of an AxiMaster as one with an immediate target does, also when others change the target between its accesses: the operations of each ID complete in the order of the calls, each with the response of its bursts, every byte of an operation without errors is written once and in order, an operation with data that is complete has made all its accesses and those of the operations issued before it; on a memory used by nobody else its contents are, at every moment, those of writing a prefix of the bytes of the operations in issue order; and everything completes under every fair schedule. For the transfers of any master: each beat of each burst leads to one access per run of strobed bytes, in order, up to the first one that raises; each burst leads to one response, SLVERR if one raised.", "quantifier": "every bus width, burst type, target and every duration of each of its accesses, every interleaving with calls, transfers and changes of the target by others", "why_tests_cant": "tests run against a memory that answers at once", "anchors": ["cocotbext/axi/axi_master.py: AxiMasterWrite", "cocotbext/axi/axi_slave.py: AxiSlaveWrite._process_write"]}
{"id": "C89", "title": "AXI reads take each byte from its lane, whatever the other lanes carry", "statement": "AxiMaster.read, with any burst type, returns for each address the byte on that address's lane of the R beat of its container; data on other lanes, in particular before the start address and after the last one, never appears. It waits while beats are missing, fails an assertion at the first beat whose rlast is not true exactly on the last beat of each burst, and consumes exactly the beats of its bursts, with one user value per beat. AxiLiteMaster.read and ApbMaster.read take each byte from its lane of the word of its address.", "quantifier": "every address, length, burst type, beat size, bus width, and every sequence of R beats", "why_tests_cant": "a slave model returns tidy data: garbage on unused lanes and misplaced rlast do not occur in tests", "anchors": ["cocotbext/axi/axi_master.py: AxiMasterRead._process_read_resp_id", "cocotbext/axi/axil_master.py: AxiLiteMasterRead._process_read_resp"]}
{"id": "C90", "title": "WRAP-burst writes from the master go to the wrapping addresses", "statement": "A WRAP write of m full beats from an aligned address is one burst, and every byte is strobed at its address wrapped within the container of m*size bytes.", "quantifier": "every address, beat size, number of beats and bus width", "why_tests_cant": "needs lane-level reasoning for all sizes, and start addresses next to a 4 KB boundary", "anchors": ["cocotbext/axi/axi_master.py: AxiMasterWrite._process_write (WRAP)"]}
{"id": "C91", "title": "FIXED- and WRAP-burst reads return the bytes of the fixed word and of the wrapping addresses", "statement": "A FIXED read through a slave on a byte memory returns, for every byte of the request, the memory's byte on that byte's lane of the bus word of the start address. A WRAP read of m full beats from an aligned address is one burst and returns the bytes of the wrapped addresses. Neither changes the memory.", "quantifier": "every memory content, address, length, beat size, max_burst_len and bus width", "why_tests_cant": "needs lane-level reasoning for all sizes and burst splits at once", "anchors": ["cocotbext/axi/axi_master.py: AxiMasterRead._process_read, _process_read_resp", "cocotbext/axi/axi_slave.py: AxiSlaveRead._process_read"]}
