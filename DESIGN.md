# Formal model of cocotbext-axi in Rocq (Coq 8.16.1)

## Trusted base

* Coq's kernel (`coqc`, re-checked with `coqchk`).
* What `Print Assumptions` lists for each property theorem.  The aim is "Closed under the
  global context" for all of them; the development uses only the Coq standard library
  (Z, N, lists, lia).  Deviations are listed in the section "Assumptions" at the end.
* The reading of the Python source: every definition in a `M_*.v` file cites the file and lines
  in /repo it transcribes, together with the simplifications made.
* The hand-written model of the Python semantics used (`Py.v`): unbounded ints, `//` and `%`
  with positive divisors, bit operations, slices, `len` overflow, exceptions as values, dicts as
  association lists.
* The model of cocotb: co-operative tasks which only interleave at `await`; a clock edge samples
  the values before the edge; queues are FIFO.

## Layout (rocq/theories)

* `Py.v` – Python values, exceptions, integers/bytes, list slicing; lemmas.
* `M_x.v` – model of the code (transcription).  `S_x.v` – independent specification.
* `P_x.v` – lemmas and proofs.
* `T_x.v` – the property theorems only, each with `Print Assumptions` and an `Example`
  showing a non-trivial case that meets the hypotheses.

## Modelling and proof plan per property

| Property | Modelled | Proof method |
|---|---|---|
| C01, C02 | SparseMemory with its dict of 4096-byte blocks, loop by loop | refinement to a total function Z -> byte, induction on operation histories |
| C03, C04 | Memory word accessors, `to_bytes`/`from_bytes`, `len()` overflow | round-trip lemma on digits, frame lemma; C04 refuted at default size |
| C05 | hexdump_line(s) as text | induction on the row loop; text decoder as specification |
| C06–C09 | BuddyAllocator free lists, alloc/free loops | invariant (free+live blocks tile the range, no free buddies) over all histories; live set defined from the history alone |
| C10–C13, C19 | AddressSpace on a heap of objects (region trees, windows, sparse memories) | decoding function on single addresses as specification; induction over the region loop and fuel |
| C14, C15 | Window translation, absolute addresses | induction on chain / tree |
| C16 | WindowPool, Pool on top of BuddyAllocator | from C06/C07 |
| C17, C18 | MemoryInterface byte/word accessors, PeripheralRegion try/except TypeError | evaluation + round trip; counterexamples |
| C20–C26 | AXI master segmentation (`_process_write`, `_process_read`), response assembly, AXI slave beat loop | induction on beats with loop invariants; memory as function Z -> byte |
| C27, C28 | slave response generation with arbitrary failing target; response aggregation | induction on beats/responses |
| C29 | argument checks | exhaustive case analysis, spec of admissible requests |
| C30, C31, C32, C52, C54–C58 | task level transition systems: TagContext queues, in-flight counters, reset flush, channel queues | invariants over arbitrary schedules |
| C59, C60 | the same systems under fair infinite schedules | a measure that every possible step lowers and no impossible step changes |
| C62, C63 | the same systems with clocked sources and sinks as channels | simulation by the queue level systems; fair clocked schedules become fair schedules |
| C64 | the clocked AXI-Lite system with a reset at any moment | the state after a reset simulates a fresh queue level system; answers since the last reset as invariant |
| C65 | the clocked AXI system with a reset at any moment | as C64; leftover contexts of the tag managers renamed to those of a fresh master, fair schedules transported along the renaming |
| C66 | AXI stream source, sink and monitor on one bus and reset | invariant: the accepted, driven and remaining beats are those of one frame; ledger of the frames sent; liveness of C45 after the release |
| C67 | stream receivers with active_event, `active` and calls of wait() | invariants: event set iff queue non-empty, calls block only while it is clear, `active` covers a partial frame; refutation by a sleeping sink |
| C68 | blocking send() of both sources with any number of concurrent calls | invariant: a call waits only while the source is full; conservation of calls; measure (calls open, work of the source) for fair schedules |
| C69 | APB master and slave on one reset | epoch invariant: since the last assertion the C35 invariant holds for the target of that moment; position of the reset in the current operation determines what is flushed |
| C70 | wait(), wait_read(), wait_write() of the three masters, any number of callers | a sleeping call sleeps at an event that is not set; the event is set exactly when its half is idle (C31) |
| C71 | address spaces as targets of the three slaves | the heap is a byte memory whose cells are (memory, offset) pairs; targets with holes: every call raises exactly in the holes, the calls cover the rest (C52, C56) |
| C72 | masters as memory interfaces and as regions of address spaces, chains of buses | simulation between a heap with byte-storing peripherals and the heap with memories in their place, for every API call; the bus operation as one step on the slave's target |
| C73 | concurrent blocking recv() and read() | fifo relation between queue contents and events, permutation of calls made and calls ended, invariant "items in the queue <= woken calls while a call waits", ledger of the read queue |
| C74 | pause generators | invariant: all tasks but one are done, the live one has drawn as many values as there were edges |
| C75 | rate of transfers | invariant over the pauses since the last edge, potential "an item is offered" |
| C76 | multi-port memories | projection of the history to each port (the others' steps are pokes), reuse of C55/C58 |
| C77 | frames by reference | heap of lists and frames; ownership invariant; refinement to the source with frames as values |
| C78 | time stamps of frames | groups of transfers and of beats put on the wires; stamps beside the components; matching of the two |
| C79 | constructors and widths | case analysis; ties the hypotheses cfg_ok and bus_ok of other theorems to what constructors and calls accept |
| C80 | writes without wstrb | the slave without strobes is the slave with all strobes set; refinement of beat-wise stores to a closed form per bus word |
| C81 | calls and events of init_write/init_read | invariant over a generic machine of waiting tasks, instantiated with the five master engines |
| C82 | concurrent reads and writes through address spaces | calls as programs of accesses; invariant over all interleavings: every program is where its own accesses led it; accesses to the memories replayed in order |
| C83 | regions, memories and RAMs sharing a memory object | a step stores its bytes or nothing, in one object; induction over the history; sparse objects through the refinement of C02 |
| C84 | an APB interface on a memory that others use too | master and slave only see the target's answers: the run is replayed on a target that gives these answers and records the calls, where C35 holds; moments of the calls as in C76 |
| C85 | wait(timeout) of the receivers | generic over the receiver and the kinds of its events; the event agrees with the queue, each call is in one place, its deadline is kept |
| C86 | APB slaves whose target takes time | between the accesses of a word the system is one of C35 with a paused slave, except for the target; finishing the word is serving it at once |
| C87 | AXI-Lite slaves whose target takes time | an instance of the generic system of C56: each access is an internal step of the slave; the generic theorem asks only that a task which still has such a step to make is not done |
| C88 | AXI slaves whose target takes time | an instance of the generic system of C52, as C87; completion by the potential of C60 with a step per access |
| C89 | What AxiMaster.read makes of any R beats | invariant of the beat loop by absolute address; the outcome follows a comparison of the expected and the received `rlast` values |
| C90 | WRAP writes of the AXI master | as C26: the lane of each byte follows its incrementing address, which agrees with the wrapped one modulo the bus width |
| C91 | FIXED and WRAP reads of the AXI master | the R beats of each burst (P_axislave), then C89 takes each byte from its lane |
| C33, C34 | AXI-Lite master/slave | as for AXI |
| C35, C36, C61 | clocked APB master x slave state machines with pauses | lockstep invariant over all schedules, ranking function for completion |
| C37–C42 | clocked StreamSource/StreamSink/StreamMonitor with explicit sleep/wake state | inductive invariant over all operation histories |
| C43–C49 | AxiStreamFrame and clocked AXI stream source/sink/monitor | induction on frames/beats; inductive invariants |
| C50 | Reset | history induction |
| C51 | define_stream list manipulation | induction on signal list |

Properties that turn out to be false of the faithful model are kept in `properties.jsonl` as the
user would expect them; the model then proves a theorem `..._refuted` with a concrete witness and
the strongest true restriction as `..._partial`.

## Modelled code

* memory: `SparseMemory`, `Memory`, `hexdump*` (sparse_memory.py, memory.py, utils.py).
* `BuddyAllocator` (buddy_allocator.py).
* address_space.py completely, on a heap of objects with sharing and mutation.  A read or write is
  one atomic step (see M_asconc.v below for several at once); `mem` (see M_memview.v below),
  `window_type`, `pool_type`, kwargs keep their defaults; nobody calls
  `free` on the allocator of a pool; a peripheral is any function of its own call history.
* AXI: burst generation and response assembly of `AxiMasterWrite/Read`, beat loop of
  `AxiSlaveWrite/Read`, `AxiRam` (through `Memory`), argument checks of the init calls; tasks, queues,
  IDs, `TagContext(Manager)`, counters, events and reset of the AXI masters, for commands whose
  segmentation does not raise.
* `AxiMasterWrite/Read` connected to `AxiSlaveWrite/Read` through the channels' bounded queues (M_sys.v): user,
  tasks, stream sources, transfers and slave task interleave arbitrarily; no reset; the target calls of
  one beat are one step.  Both halves on one target: M_axisys.v.
* AXI-Lite: word generation and response assembly of `AxiLiteMasterWrite/Read`, `AxiLiteSlaveWrite/Read`,
  `AxiLiteRam`, argument checks; tasks, queues, counters, events and reset of the AXI-Lite masters.
  `AxiLiteMasterWrite/Read` connected to `AxiLiteSlaveWrite/Read` in the same way as for AXI (M_litesys.v), both
  halves on one target: M_literw.v.
* Any number of such AXI and AXI-Lite systems on one memory, with direct accesses (M_mport.v).  Left out: resets; for `ApbRam` on a shared memory see M_apbenv.v below.
* `AxiStreamFrame` objects and their lists on a heap, with an `AxiStreamSource` that holds references and a program that changes what it holds (M_frmheap.v).  Left out: frames on the receiving side by reference, immutable sidebands other than ints.
* Time stamps of AXI stream frames on the link of source, sink and monitor (M_axistime.v); each clock edge has a time given from outside.  Buses with and without tlast.
* The geometry that the constructors compute and check (M_geom.v).  Left out: initial values of signals, log messages, width checks of single signals (C51).
* The callers of `write()`/`read()` and the tasks of `init_write()`/`init_read()` around the masters (M_initev.v).  Left out: cancelled tasks, an event that the program itself sets or clears.
* Several reads and writes through address spaces at the same time (M_asconc.v).  Left out: registering regions or making windows while calls are open, peripherals whose own access is spread over time, cancelled tasks.
* The argument `mem` of regions, `Memory` and the RAMs: mmap, bytearray and SparseMemory objects shared by any number of them (M_memview.v).  Left out: other kinds of objects, slices with a step, and changing the length of an mmap or bytearray by its own methods.
* An APB master and slave on a target that others change at any moment (M_apbenv.v).  Left out: resets, targets that block (for one user see M_apbblk.v).
* `wait(timeout)` of the four receivers, with simulation time (M_rxtime.v), beside any operations of theirs.  Left out: the conversion of time units; the order of events within an instant is that of the history, timers first.
* An APB slave whose target blocks (M_apbblk.v), with the master of M_apb.v.  Left out: resets, other users of the target at the same time (for AXI-Lite and AXI slaves see M_slowslv.v and M_slowaxi.v).
* The write task of an AXI-Lite slave whose target blocks (M_slowslv.v), with the master and channels of M_litesys.v and alone, with the transfers of any master; the same for the AXI write slave (M_slowaxi.v) with M_sys.v.  Left out: resets.
* Both systems once more with clocked `StreamSource`/`StreamSink` as channels (M_cchan.v, M_clk.v): every clock edge samples the
  signals, then the two passes of the loops are steps of their own; pauses at any time; no reset, no `clear`.
* The clocked AXI-Lite and AXI systems with one reset for all components (M_rst.v): a change of the reset signal is one step in which
  every component's handler runs.
* APB: `ApbMaster`, `ApbSlave`, `ApbRam` as clocked state machines, alone, connected (M_apb.v) and on one reset (M_rstapb.v): every clock edge
  resumes both tasks with the old signal values; calls, wake-ups, pauses and resets at any time between edges.
  Left out: targets that block; for the tasks started by init_write/init_read see M_initev.v.
* An object of a heap of spaces as the target of a slave (M_astgt.v: axi_slave.py 95-96, 259-260, axil_slave.py 89-90, 208-209,
  apb.py 518-522): one call of read or write is one step.
* The masters as `Region` (M_busreg.v: axi_master.py 196, 638, 1038, axil_master.py 86, 346, 582, apb.py 130, address_space.py
  74-136, 286-296): one read or write of a master together with its slave and the slave's target is one step.  The target of
  AxiLiteSlave may return the result object of a master (axil_slave.py 225-248, with the log line).
* wait(), wait_read(), wait_write() and idle() of the three masters (M_mwait.v): the calls as tasks beside the engines; a woken call
  runs at any later time.
* reset.py; stream.py (`StreamSource`, `StreamSink`, `StreamMonitor`), axis.py (frames, source,
  sink, monitor) as clocked state machines; source, sink and monitor on one bus and reset (M_axislink.v); active_event,
  `active` and wait() of the receivers (M_rxwait.v); concurrent blocking send() calls (M_send.v); concurrent blocking recv() and read() calls (M_recv.v; cocotb's
  Queue.get: waits while the queue is empty, a put wakes one waiting call, any of them; cancelled calls are left out); pause generators (M_pgen.v; the task of a generator as a further task beside the component's, run before or after it at an edge;
  also the copies in axis.py and apb.py).  Left out: signal width overflow,
  timeouts of wait() (for these see M_rxtime.v below).
* `define_stream`, `StreamTransaction.__init__`, the width check of `StreamBase.__init__` and the ten channel
  declarations of axi_channels.py and axil_channels.py (M_define.v), for ASCII names.

## Not modelled

Logging, `repr`, HDL simulator internals (signals are values; X/Z only where the code tests for
it), bus discovery by signal name, the Python event loop below the level "runnable tasks run in
some order until they block", garbage collection, and performance.

## Assumptions

None: `Print Assumptions` answers "Closed under the global context" for every property theorem.
