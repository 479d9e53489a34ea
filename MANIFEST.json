{
 "claims": [
  {
   "property": "C01",
   "status": "proved",
   "theorems": [
    "C01_sparse_memory_is_flat_array",
    "C01_rejected_write_no_effect",
    "C01_rejected_list_write_no_effect_refuted"
   ],
   "note": "All histories of read/write/clear/index/slice calls. Atomicity of rejected writes holds for bytes; for a list containing a non-byte it is refuted with a witness."
  },
  {
   "property": "C02",
   "status": "proved",
   "theorems": [
    "C02_getitem_slice",
    "C02_setitem_slice",
    "C01_sparse_memory_is_flat_array"
   ],
   "note": "Reversed slices and empty slices at the end raise ValueError (unlike Python bytes), stated in the theorem."
  },
  {
   "property": "C03",
   "status": "proved",
   "theorems": [
    "C03_words_roundtrip",
    "C03_words_overflow",
    "C03_single_word",
    "C03_dword_qword",
    "C03_byte",
    "C03_read_truncates"
   ],
   "note": ""
  },
  {
   "property": "C04",
   "status": "partial",
   "theorems": [
    "C04_memory_constructible_partial",
    "C04_memory_default_size_refuted"
   ],
   "note": "The full statement is false: sizes >= 2**63, including the documented default 2**64, raise OverflowError in len()."
  },
  {
   "property": "C06",
   "status": "proved",
   "theorems": [
    "C06_alloc_aligned_disjoint",
    "C06_live_pairwise_disjoint"
   ],
   "note": "Invariant over all alloc/free histories; the live set is computed from calls and answers only."
  },
  {
   "property": "C07",
   "status": "proved",
   "theorems": [
    "C07_alloc_in_range",
    "C07_alloc_in_range_other_sizes_refuted"
   ],
   "note": "Exact characterisation: holds for powers of two; for every other capacity a two-call history overruns it."
  },
  {
   "property": "C08",
   "status": "proved",
   "theorems": [
    "C08_free_iff_live",
    "C08_all_freed_is_initial"
   ],
   "note": ""
  },
  {
   "property": "C09",
   "status": "proved",
   "theorems": [
    "C09_alloc_succeeds_iff_space",
    "C09_alloc_failure_no_effect"
   ],
   "note": ""
  },
  {
   "property": "C05",
   "status": "partial",
   "theorems": [
    "C05_hexdump_lines_exact",
    "C05_hexdump_str_lines",
    "C05_sparse_hexdump_exact",
    "C05_memory_hexdump_exact_partial",
    "C05_memory_hexdump_zero_refuted"
   ],
   "note": "Exact for every length except 0: hexdump_lines treats length 0 as 'no length given' and dumps to the end (refuted with a witness); SparseMemory.hexdump_lines is exact for all lengths."
  },
  {
   "property": "C20",
   "status": "proved",
   "theorems": [
    "C20_write_bursts_legal",
    "C20_write_channels",
    "C20_read_bursts_legal"
   ],
   "note": "INCR bursts; bus of 2^m byte lanes, m <= 7. An unaligned zero-length write still emits one beat without strobes."
  },
  {
   "property": "C21",
   "status": "proved",
   "theorems": [
    "C21_strobes_select_exactly"
   ],
   "note": ""
  },
  {
   "property": "C22",
   "status": "proved",
   "theorems": [
    "C22_write_exact",
    "C22_ram_write_exact"
   ],
   "note": "Generic for any byte-storing target and for AxiRam (RAM size a multiple of the bus width, bus with wstrb). Queues and scheduling are the subject of C30/C52."
  },
  {
   "property": "C23",
   "status": "proved",
   "theorems": [
    "C23_read_exact",
    "C23_ram_read_exact"
   ],
   "note": ""
  },
  {
   "property": "C24",
   "status": "proved",
   "theorems": [
    "C24_ram_roundtrip"
   ],
   "note": "Also through an alias of the address (k times the RAM size)."
  },
  {
   "property": "C25",
   "status": "proved",
   "theorems": [
    "C25_C27_slave_write",
    "C25_C27_slave_read"
   ],
   "note": "All burst types, arbitrary target with a call log."
  },
  {
   "property": "C26",
   "status": "partial",
   "theorems": [
    "C26_fixed_write_full_width_partial",
    "C26_fixed_write_refuted",
    "C26_fixed_write_exact",
    "C26_fixed_write_correct_iff"
   ],
   "note": "False for bursts narrower than the bus: the byte lanes rotate (witness). Exact for every size and address: byte i goes to the bus word of the start address, on the lane of address A+i; so the claim holds if and only if the beats are as wide as the bus or the data fits in one beat."
  },
  {
   "property": "C27",
   "status": "proved",
   "theorems": [
    "C25_C27_slave_write",
    "C25_C27_slave_read",
    "C27_slave_rejects",
    "C27_lite_slave_write",
    "C27_lite_slave_read"
   ],
   "note": "AXI and AXI-Lite slaves."
  },
  {
   "property": "C28",
   "status": "partial",
   "theorems": [
    "C28_write_errors_reported_partial",
    "C28_read_errors_reported_partial",
    "C28_errors_reported_refuted",
    "C28_lite_errors_reported_partial",
    "C28_write_response",
    "C28_read_response",
    "C28_lite_response",
    "C28_error_lost_exact"
   ],
   "note": "False if an EXOKAY follows the error; true without EXOKAY. Exactly the last response that is not OKAY is reported, so an error is lost if and only if an EXOKAY follows it and no error after that."
  },
  {
   "property": "C29",
   "status": "partial",
   "theorems": [
    "C29_write_request_partial",
    "C29_read_request_partial",
    "C29_id_fits_refuted",
    "C29_lite_write_request",
    "C29_lite_read_request"
   ],
   "note": "Exact characterisation of the accepted requests; one ID value too many (2**id_width) is accepted, refuting the ID part."
  },
  {
   "property": "C37",
   "status": "proved",
   "theorems": [
    "C37_source_stable",
    "C37_source_stable_history",
    "C37_axis_source_stable",
    "C37_axis_source_stable_history"
   ],
   "note": ""
  },
  {
   "property": "C38",
   "status": "proved",
   "theorems": [
    "C38_exactly_once_in_order",
    "C38_no_duplication_any_history",
    "C38_delivery"
   ],
   "note": "With clear() and source resets, which drop items, the received items are a subsequence of the sent ones; without them the equation is exact, and everything is delivered after queue length + 3 edges when neither end pauses."
  },
  {
   "property": "C39",
   "status": "proved",
   "theorems": [
    "C39_sink_bound",
    "C39_axis_sink_bound",
    "C39_axis_sink_bound_reached"
   ],
   "note": "L+1 frames reached for every limit."
  },
  {
   "property": "C40",
   "status": "partial",
   "theorems": [
    "C40_sink_ready_partial",
    "C40_sink_ready_refuted",
    "C40_axis_sink_ready_partial",
    "C40_axis_sink_ready_refuted",
    "C40_sink_ready_again",
    "C40_sink_ready_or_stuck",
    "C40_axis_sink_ready_again",
    "C40_axis_sink_ready_or_stuck"
   ],
   "note": "False after clear(): a full sleeping sink is never woken (witness, for every number of clock edges). True without clear() and limit changes, and (C40_sink_ready_again) for all histories in which clear() and limit changes do not make room in a full sink; also after any history once pause changes, an item is taken, valid or ready rises, or a reset comes. Otherwise ready is back within two edges or at no later edge (C40_sink_ready_or_stuck)."
  },
  {
   "property": "C41",
   "status": "proved",
   "theorems": [
    "C41_monitor_exact",
    "C41_axis_monitor_exact"
   ],
   "note": ""
  },
  {
   "property": "C42",
   "status": "proved",
   "theorems": [
    "C42_idle_means_done",
    "C42_done_becomes_idle",
    "C42_idle_implies_wait",
    "C42_wait_after_clear_refuted",
    "C42_axis_idle_means_done",
    "C42_axis_idle_implies_wait",
    "C42_axis_wait_hangs_refuted"
   ],
   "note": "StreamSource and AxiStreamSource, every receiver and history. idle() implies that wait() returns also with clear() and resets; after clear() wait() may return while an item is still offered (witness); after a frame that cannot be normalized wait() hangs while idle() is true (witness)."
  },
  {
   "property": "C50",
   "status": "partial",
   "theorems": [
    "C50_reset_tracking_partial",
    "C50_initial_level_refuted"
   ],
   "note": "A reset signal that is already active when the component is constructed is not noticed until it changes (witness); tracking is exact relative to the changes."
  },
  {
   "property": "C43",
   "status": "partial",
   "theorems": [
    "C43_normalize",
    "C43_normalize_empty_sideband_refuted",
    "C43_normalize_idempotent",
    "C43_normalize_idempotent_refuted",
    "C43_compact",
    "C43_compact_idempotent",
    "C43_compact_twice_refuted"
   ],
   "note": "normalize raises for empty-list sidebands and, called twice, for empty frames; compact raises if called twice without normalize (all three proved). Everything else holds for every frame."
  },
  {
   "property": "C44",
   "status": "proved",
   "theorems": [
    "C44_reassembly",
    "C44_roundtrip",
    "C44_roundtrip_per_byte_refuted",
    "C44_no_tkeep"
   ],
   "note": "Exact for every frame, lane count and byte size. Sidebands that vary inside a beat are merged to the value of the last byte of the beat (part of the theorem; equality with the sent frame then fails, witness given)."
  },
  {
   "property": "C48",
   "status": "proved",
   "theorems": [
    "C48_equality",
    "C48_reflexive_symmetric",
    "C48_scalar_list",
    "C48_transitive_refuted"
   ],
   "note": "Also: the comparison is not transitive."
  },
  {
   "property": "C45",
   "status": "proved",
   "theorems": [
    "C45_prefix",
    "C45_complete",
    "C45_delivery"
   ],
   "note": "Every history without clear and resets; frames that normalize (C43). Stated per frame as what a receiver makes of it, which C44 characterises."
  },
  {
   "property": "C46",
   "status": "partial",
   "theorems": [
    "C46_tx_complete_partial",
    "C46_fires_with_last_beat",
    "C46_empty_frame_refuted"
   ],
   "note": "False for empty frames: dropped silently, tx_complete never fires (proved for every number of edges). True for non-empty frames that normalize, for every history with clear and reset."
  },
  {
   "property": "C47",
   "status": "proved",
   "theorems": [
    "C47_source_counters",
    "C47_sink_counters",
    "C47_monitor_counters",
    "C47_full"
   ],
   "note": ""
  },
  {
   "property": "C49",
   "status": "proved",
   "theorems": [
    "C49_reads_lose_nothing",
    "C49_arrivals_compact",
    "C49_read_counts"
   ],
   "note": "Histories without recv and clear, which take frames away."
  },
  {
   "property": "C10",
   "status": "proved",
   "theorems": [
    "C10_regions_disjoint",
    "C10_accepted_iff",
    "C10_register_effect"
   ],
   "note": "Every history of API calls. An empty region counts as one byte when it is registered, and an existing empty region strictly inside a new range blocks it (part of the exact characterisation)."
  },
  {
   "property": "C11",
   "status": "proved",
   "theorems": [
    "C11_read_exact",
    "C11_decode_unique",
    "C11_mapped_read_succeeds",
    "C11_unmapped_read_raises",
    "C11_single_region"
   ],
   "note": "Nested spaces and windows of any depth; success is stated for regions that lie inside their space (see C19) and are not empty. Peripherals must answer with the requested number of bytes."
  },
  {
   "property": "C12",
   "status": "proved",
   "theorems": [
    "C12_write_exact",
    "C12_mapped_write_succeeds",
    "C12_read_back"
   ],
   "note": "Read-back needs the written addresses to stand for distinct bytes (the same memory may be registered twice)."
  },
  {
   "property": "C13",
   "status": "partial",
   "theorems": [
    "C13_rejected_write_no_effect_refuted",
    "C13_rejected_write_is_prefix_partial"
   ],
   "note": "False: a write into a gap raises after the regions before the gap were written (witness). A raising write has stored exactly a prefix; nothing if the first address is unmapped."
  },
  {
   "property": "C14",
   "status": "proved",
   "theorems": [
    "C14_windows_confined",
    "C14_create_window"
   ],
   "note": "Every history in which no window is itself registered as a region; for those see C53."
  },
  {
   "property": "C15",
   "status": "partial",
   "theorems": [
    "C15_absolute_address",
    "C15_bottom_up_refuted"
   ],
   "note": "Exact equality of accesses for every tree built top-down with regions inside their space. If a sub-space is populated before it is registered the absolute address is stale (witness), so the construction order in the statement is necessary."
  },
  {
   "property": "C16",
   "status": "partial",
   "theorems": [
    "C16_windows",
    "C16_create_pool",
    "C16_create_window_pool",
    "C16_regions_partial",
    "C16_regions_inside_refuted",
    "C16_failed_alloc_leaks_refuted"
   ],
   "note": "Windows: proved. Regions: inside the pool only for power-of-two sizes (witness for 12). A failing alloc_window leaks its block (witness)."
  },
  {
   "property": "C17",
   "status": "partial",
   "theorems": [
    "C17_words_roundtrip_partial",
    "C17_word_variants_partial",
    "C17_read_byte_refuted",
    "C17_write_byte_memory_refuted"
   ],
   "note": "Words round-trip on every kind of memory route; read_byte never returns and write_byte raises TypeError on MemoryRegion."
  },
  {
   "property": "C18",
   "status": "partial",
   "theorems": [
    "C18_async_once_partial",
    "C18_sync_twice_refuted",
    "C18_async_typeerror_refuted"
   ],
   "note": "True for coroutine-based objects; synchronous ones are called twice on every access; TypeError of an asynchronous write is reported as success."
  },
  {
   "property": "C19",
   "status": "partial",
   "theorems": [
    "C19_beyond_end_refuted",
    "C19_beyond_end_partial"
   ],
   "note": "False: a region can be registered across the end of the space (witness). True for accesses that start outside, and for all if no region sticks out."
  },
  {
   "property": "C53",
   "status": "partial",
   "theorems": [
    "C53_registered_window_refuted"
   ],
   "note": "False: registration overwrites the window's parent; registered at its own offset the window can no longer be read at all."
  },
  {
   "property": "C33",
   "status": "proved",
   "theorems": [
    "C33_write_words",
    "C33_write_exact",
    "C33_read_exact",
    "C33_ram_write_exact",
    "C33_ram_read_exact",
    "C33_ram_roundtrip",
    "C33_no_wstrb_refuted"
   ],
   "note": "Any positive number of byte lanes, any byte-storing target. On a bus without wstrb a partial write zeroes the rest of the word (witness)."
  },
  {
   "property": "C34",
   "status": "proved",
   "theorems": [
    "C34_write_attribution",
    "C34_read_attribution"
   ],
   "note": "Every history of operations, task steps, responses and resets; stated for the time since the last reset, with the completeness claim for states in which no task can run."
  },
  {
   "property": "C31",
   "status": "partial",
   "theorems": [
    "C31_lite_write_idle_partial",
    "C31_lite_read_idle_partial",
    "C31_lite_init_not_counted_refuted",
    "C31_axi_write_idle_partial",
    "C31_axi_read_idle_partial",
    "C31_axi_init_not_counted_refuted",
    "C31_apb_returns",
    "C31_apb_idle_partial"
   ],
   "note": "False for init_read/init_write: not counted until the started task runs (witness). True for the operations that are queued, for all histories (AXI and AXI-Lite masters; for AXI whatever the slave does). APB: exact equivalence for histories without a reset in a window of the task (see C32)."
  },
  {
   "property": "C32",
   "status": "partial",
   "theorems": [
    "C32_lite_write_reset",
    "C32_lite_read_reset",
    "C32_lite_early_answer_refuted",
    "C32_axi_write_reset",
    "C32_axi_read_reset",
    "C32_apb_reset_partial",
    "C32_apb_lost_refuted",
    "C32_apb_result_refuted"
   ],
   "note": "Proved for AXI and AXI-Lite masters: every history and every point of reset. For AXI-Lite if the other side does not answer transfers it was not sent (necessary: witness), for AXI without assumption. False for ApbMaster: a command taken from the queue but not yet past the next clock edge is lost (its caller hangs forever although idle() holds), and a completed result is overwritten by None because current_command is not cleared; true outside that window."
  },
  {
   "property": "C30",
   "status": "proved",
   "theorems": [
    "C30_write_attribution",
    "C30_read_attribution",
    "C30_unexpected_response_refuted"
   ],
   "note": "Every history of operations, task steps, responses and resets, faithful TagContextManager; the only assumption is that the other side answers the bursts of each ID in order and not before they were requested (necessary: witness)."
  },
  {
   "property": "C52",
   "status": "proved",
   "theorems": [
    "C52_write_system",
    "C52_write_memory",
    "C52_ram_write"
   ],
   "note": "Any target incl. raising ones (a word none of whose calls raises is written completely); all schedules of user, master tasks, channels (bounded queues) and slave task; memory content characterised at every moment. No reset inside the run (C32)."
  },
  {
   "property": "C54",
   "status": "proved",
   "theorems": [
    "C54_read_system",
    "C54_read_calls",
    "C54_read_memory",
    "C54_write_system_shared"
   ],
   "note": "Any target (raising, short data, changed by others at any time); all schedules. Also the write path (C52) with a target that others change. INCR bursts, no reset inside the run."
  },
  {
   "property": "C55",
   "status": "proved",
   "theorems": [
    "C55_memory",
    "C55_read_after_write",
    "C55_ram_read_after_write"
   ],
   "note": "Any byte-storing target and AxiRam (size a multiple of the bus width); all schedules of both paths; no reset inside the run. The target's calls are atomic, as those of Memory are."
  },
  {
   "property": "C35",
   "status": "proved",
   "theorems": [
    "C35_issue_order",
    "C35_system",
    "C35_completes",
    "C35_write_calls",
    "C35_read_calls",
    "C35_memory",
    "C35_ram"
   ],
   "note": "Any target incl. raising ones, every interleaving of calls, clock edges and pauses, without reset; completion from every reached state once pauses stop. The words of an operation are those of C33, each accessed once. Without pslverr errors are not reported (example)."
  },
  {
   "property": "C36",
   "status": "proved",
   "theorems": [
    "C36_protocol"
   ],
   "note": "Arbitrary slave, resets included. Also: penable falls after pready, setup lasts one cycle."
  },
  {
   "property": "C51",
   "status": "proved",
   "theorems": [
    "C51_define",
    "C51_no_ready",
    "C51_channels",
    "C51_raises",
    "C51_no_valid",
    "C51_given_not_listed_refuted",
    "C51_transaction",
    "C51_transaction_duplicate_refuted",
    "C51_widths"
   ],
   "note": "Every list, optional list, given or detected handshake names, widths. The lists of all ten AXI/AXI-Lite channels are evaluated. Outside the premise it is false: a given handshake name that is not listed puts its single characters on the bus. Also the transaction's constructor (a signal listed twice loses its value) and the width check."
  },
  {
   "property": "C56",
   "status": "proved",
   "theorems": [
    "C56_lite_write_system",
    "C56_lite_write_calls",
    "C56_lite_write_memory",
    "C56_lite_ram_write"
   ],
   "note": "Any target incl. raising ones (a word none of whose calls raises is written completely), changed by others at any time; all schedules of user, master tasks, channels (bounded queues) and slave task. Bus with wstrb; no reset inside the run (C32)."
  },
  {
   "property": "C57",
   "status": "proved",
   "theorems": [
    "C57_lite_read_system",
    "C57_lite_read_calls",
    "C57_lite_read_memory"
   ],
   "note": "Any target (raising, short data, changed by others at any time); all schedules; no reset inside the run."
  },
  {
   "property": "C58",
   "status": "proved",
   "theorems": [
    "C58_memory",
    "C58_read_after_write",
    "C58_ram_read_after_write"
   ],
   "note": "Any byte-storing target and AxiLiteRam (size a multiple of the bus width); all schedules of both paths; no reset inside the run."
  },
  {
   "property": "C59",
   "status": "proved",
   "theorems": [
    "C59_lite_write_completes",
    "C59_lite_read_completes",
    "C59_lite_memory_completes",
    "C59_lite_ram_completes"
   ],
   "note": "Fair: every step of every task and channel recurs in the schedule (it does nothing when it is not possible); no order, delay or bound is assumed. Any target incl. raising ones, changed by others at any time. No reset inside the run."
  },
  {
   "property": "C60",
   "status": "proved",
   "theorems": [
    "C60_write_completes",
    "C60_read_completes",
    "C60_memory_completes",
    "C60_ram_completes"
   ],
   "note": "As C59, any IDs, legal INCR operations (C52/C54). No reset inside the run."
  },
  {
   "property": "C61",
   "status": "proved",
   "theorems": [
    "C61_master_pause",
    "C61_slave_pause"
   ],
   "note": "Every history, resets on either side included; the master against an arbitrary slave."
  },
  {
   "property": "C62",
   "status": "proved",
   "theorems": [
    "C62_write_refines",
    "C62_read_refines",
    "C62_axi_refines",
    "C62_axi_ram_read_after_write",
    "C62_lite_write_refines",
    "C62_lite_read_refines",
    "C62_lite_refines",
    "C62_lite_ram_read_after_write"
   ],
   "note": "Each channel may see its clock edges independently of the others; the passes of source and sink after an edge and all other tasks interleave in any order. No reset and no clear() inside the run."
  },
  {
   "property": "C63",
   "status": "proved",
   "theorems": [
    "C63_write_completes",
    "C63_read_completes",
    "C63_axi_ram_completes",
    "C63_steady_is_fair",
    "C63_lite_write_completes",
    "C63_lite_read_completes",
    "C63_lite_ram_completes",
    "C63_lite_steady_is_fair"
   ],
   "note": "Any history with any pauses first; afterwards no further operations are issued. Legal operations and targets as C59/C60. No reset and no clear() inside the run."
  },
  {
   "property": "C64",
   "status": "proved",
   "theorems": [
    "C64_lite_silent",
    "C64_lite_reset",
    "C64_lite_refines",
    "C64_lite_ram_read_after_write",
    "C64_lite_ram_completes"
   ],
   "note": "Reset at any point of the clocked system of C62, repeated resets included. Completion exactly once as in C32, where the assumption on the other side is proved of the slave. The slave's target does not block. Distinct operations and legal arguments where the statements need them."
  },
  {
   "property": "C65",
   "status": "proved",
   "theorems": [
    "C65_axi_silent",
    "C65_axi_reset",
    "C65_axi_refines",
    "C65_axi_ram_read_after_write",
    "C65_axi_ram_completes"
   ],
   "note": "Reset at any point of the clocked system of C62, repeated resets included. The master after a reset is related to a fresh one by a renaming of manager contexts, also for fair schedules. The slave's target does not block. Legal arguments where the statements need them."
  },
  {
   "property": "C66",
   "status": "proved",
   "theorems": [
    "C66_ledger",
    "C66_monitor_agrees",
    "C66_recovers",
    "C66_single_reset_refuted"
   ],
   "note": "Source, sink and monitor on the same reset; frames that normalize, bus with tlast. Recovery for a sink without limits that was not cleared (C40). Resetting only one side does merge or cut frames (witnesses), so the common reset is necessary."
  },
  {
   "property": "C67",
   "status": "partial",
   "theorems": [
    "C67_wait",
    "C67_idle_no_partial_frame",
    "C67_monitor_idle_exact",
    "C67_sink_idle_exact",
    "C67_sink_idle_refuted"
   ],
   "note": "wait() for all four receivers, idle() for the AXI stream ones. The last sentence is false of a sink that is paused or over its limit while it takes the last transfer: it sleeps with active set and idle() stays false at every later edge (witnesses); proved for the monitor and for sinks never paused and without limit. Setting the event lets all waiting calls return in that step."
  },
  {
   "property": "C68",
   "status": "partial",
   "theorems": [
    "C68_stream_exactly_once",
    "C68_stream_limit",
    "C68_stream_no_lost_wakeup",
    "C68_stream_completes",
    "C68_axis_exactly_once",
    "C68_axis_limit",
    "C68_axis_no_lost_wakeup",
    "C68_axis_completes",
    "C68_axis_limit_refuted",
    "C68_order_refuted",
    "C68_raised_limit_refuted"
   ],
   "note": "Proved except for two clauses that are false: a new call can overtake one that was woken (C68_order_refuted), and AxiStreamSource takes one frame more than its frame limit (C68_axis_limit_refuted; limit + 1 and the byte limit up to the last frame are proved). The limit stays as it was set; raising it wakes nobody (C68_raised_limit_refuted). Items are not changed by the caller while a call waits."
  },
  {
   "property": "C69",
   "status": "proved",
   "theorems": [
    "C69_silent",
    "C69_after",
    "C69_reset",
    "C69_outstanding_none",
    "C69_window_refuted",
    "C69_completes",
    "C69_issue_order",
    "C69_memory",
    "C69_ram"
   ],
   "note": "Reset at any point, repeated resets included; what the reset reports is characterised exactly. The exception is real: a command taken from the queue but not yet current is lost (witness, also C32); between two operations the reset sets the event of the last completed one again (C32)."
  },
  {
   "property": "C70",
   "status": "partial",
   "theorems": [
    "C70_axi",
    "C70_axi_release",
    "C70_lite",
    "C70_lite_release",
    "C70_apb_partial",
    "C70_apb_release_partial",
    "C70_wait_after_init_refuted"
   ],
   "note": "Holds for the operations that were queued. False for operations begun with init_read/init_write in the same instant: wait() returns at once (witness for all three masters; contradicts the README). APB: histories without a reset in the window of C32."
  },
  {
   "property": "C71",
   "status": "partial",
   "theorems": [
    "C71_locate",
    "C71_cells",
    "C71_space_is_memory",
    "C71_axi_read_after_write",
    "C71_lite_read_after_write",
    "C71_axi_write_holes",
    "C71_axi_read_holes",
    "C71_lite_write_holes",
    "C71_lite_read_holes",
    "C71_apb_holes",
    "C71_partial_words_refuted"
   ],
   "note": "Everything but the last sentence, which is false: the slave reads whole bus words, so a mapped address in a word with a hole reads as 0 with SLVERR while a write to it succeeds (witness). For AXI and AXI-Lite the theorems about holes are for the write path and the read path separately; both paths together (C55, C58) for ranges without holes. Ranges with peripherals are not covered. No reset inside the run."
  },
  {
   "property": "C72",
   "status": "partial",
   "theorems": [
    "C72_master_checks_range",
    "C72_master_is_memory",
    "C72_accessors",
    "C72_master_stores",
    "C72_region_is_memory",
    "C72_space_over_buses",
    "C72_axi_read_after_write",
    "C72_chain",
    "C72_errors_dropped",
    "C72_errors_refuted",
    "C72_direct_target",
    "C72_direct_read"
   ],
   "note": "The last two sentences are false: errors of the bus are dropped by spaces, windows and word accessors, unmapped bytes read as 0 and writes to them vanish (characterised exactly, witness); AxiLiteSlave with a master as target dies of TypeError in its log line after the first read if the log level is INFO, and is correct otherwise. Above the masters, one read or write with all it causes on the bus is one step (that every schedule of the bus gives this result is C52-C58, C35); the memory behind a bus is accessed through that master only, its whole range is served, no reset during the call. Data of the API calls are bytes."
  },
  {
   "property": "C73",
   "status": "partial",
   "theorems": [
    "C73_exactly_once",
    "C73_calls",
    "C73_results",
    "C73_read_bytes",
    "C73_read_result",
    "C73_no_lost_wakeup",
    "C73_order",
    "C73_overtaking_refuted",
    "C73_read_waits_refuted"
   ],
   "note": "Everything but the last sentence, which is false: a call made between the wake-up of another call and its continuation overtakes it, and the overtaken call goes back to the end of the waiting calls (order proved without such calls, clear() and nowait calls); of two waiting read(count) the second waits for another frame although the first left bytes unread (witnesses). Queue.get and put of cocotb are modelled from their documented semantics, the choice of the woken call left open; cancelled calls are not modelled; frames that arrive can be compacted (C49)."
  },
  {
   "property": "C74",
   "status": "partial",
   "theorems": [
    "C74_follows",
    "C74_generator_wins",
    "C74_cleared",
    "C74_clear_unpauses_refuted"
   ],
   "note": "Everything but the last clause, which is false: clear_pause_generator() leaves pause at the generator's last value, so that a component it paused stays paused for good (witness for a source and a sink). A generator is modelled as the sequence of its values, converted to bool; one that raises is not modelled."
  },
  {
   "property": "C75",
   "status": "proved",
   "theorems": [
    "C75_next",
    "C75_rate",
    "C75_pauses",
    "C75_full_speed"
   ],
   "note": "The sink has no limit and there is no reset; the frames can be normalized. For the sink's pause the theorems need the ready signal."
  },
  {
   "property": "C76",
   "status": "proved",
   "theorems": [
    "C76_ports",
    "C76_write_read",
    "C76_stable_read",
    "C76_ram"
   ],
   "note": "Ports are AXI and AXI-Lite; no reset."
  },
  {
   "property": "C77",
   "status": "proved",
   "theorems": [
    "C77_snapshot",
    "C77_changes",
    "C77_given_back"
   ],
   "note": "For frames that can be normalized (C45); a blocked send() is modelled at the moment it proceeds."
  },
  {
   "property": "C78",
   "status": "proved",
   "theorems": [
    "C78_received",
    "C78_sent",
    "C78_before",
    "C78_source_refuted"
   ],
   "note": "With and without tlast; the comparison of both sides (C78_before) for buses with tlast, where frames correspond one for one. The README describes both stamps as times of transfer cycles; for frames given back by the source that is false (C78_source_refuted): they are the times at which the frame was taken from the queue and at which its last beat was put on the wires."
  },
  {
   "property": "C79",
   "status": "proved",
   "theorems": [
    "C79_stream",
    "C79_stream_accepts",
    "C79_stream_size_refuted",
    "C79_lite",
    "C79_axi",
    "C79_axi_sizes",
    "C79_axi_width_refuted"
   ],
   "note": "For positive arguments. Two expectations beyond the statement are refuted: a byte_size that does not divide the width is neither obeyed nor refused if the number of whole bytes divides it, and AXI data widths that are no power of two are accepted although writes on them lose data or raise."
  },
  {
   "property": "C80",
   "status": "proved",
   "theorems": [
    "C80_lite",
    "C80_axi",
    "C80_full",
    "C80_exact",
    "C80_ram",
    "C80_narrow_refuted"
   ],
   "note": "INCR bursts. Target ranges are whole bus words. What the warning of the masters promises (the write is zero-padded) is refuted for narrow beats: bytes of the operation itself are lost, and an unaligned write of no bytes clears a word."
  },
  {
   "property": "C81",
   "status": "partial",
   "theorems": [
    "C81_axi_write",
    "C81_axi_read",
    "C81_lite_write",
    "C81_lite_read",
    "C81_apb",
    "C81_apb_idle_partial",
    "C81_write_args",
    "C81_read_args",
    "C81_lite_args",
    "C81_apb_lost_refuted"
   ],
   "note": "Partial because the clause about idle is false for APB: a reset between lines 341 and 345 of apb.py loses the command, the master is idle and the event is never set. It is proved for APB without resets, and with resets if every queued operation completed. For AXI-Lite that clause assumes a slave that does not answer more than it was asked (C31). Commands are told apart by a number in front. On APB a reset may replace the result of an operation that completed before its caller ran by None (C32_apb_result_refuted); the result of an operation is the last one its event was set to. C81_lite_args is about AXI-Lite and APB, which make the same checks."
  },
  {
   "property": "C82",
   "status": "proved",
   "theorems": [
    "C82_alone",
    "C82_calls",
    "C82_read_bytes",
    "C82_write_bytes",
    "C82_others_unchanged",
    "C82_torn_refuted"
   ],
   "note": "The tree of regions is fixed while calls are open. An access to one memory or peripheral is one step. The theorem on the bytes read assumes peripherals that answer with as many bytes as they are asked for; bytes of peripherals are whatever they answer. C82_torn_refuted is the last sentence of the property."
  },
  {
   "property": "C83",
   "status": "proved",
   "theorems": [
    "C83_read",
    "C83_read_object",
    "C83_write",
    "C83_write_object",
    "C83_made",
    "C83_history",
    "C83_short_refuted",
    "C83_grow_refuted"
   ],
   "note": "For views not larger than their object, calls of Memory and the RAMs inside the object, slices inside the object and bytes; an mmap takes only bytes-like data (a list is a TypeError), a SparseMemoryRegion serves only a SparseMemory. Outside of that the claim is false for bytearrays: C83_short_refuted, C83_grow_refuted."
  },
  {
   "property": "C84",
   "status": "proved",
   "theorems": [
    "C84_served",
    "C84_completes",
    "C84_write_read",
    "C84_stable_read",
    "C84_ram"
   ],
   "note": "Without resets; the target does not block, so the accesses of one word are one step. The others are arbitrary functions on the memory that keep its invariant, at any moments."
  },
  {
   "property": "C85",
   "status": "proved",
   "theorems": [
    "C85_wait_timeout"
   ],
   "note": "Time in simulator steps; the waiting calls return in the step in which the event is set or the timer fires; timers of an instant fire before the other events of that instant."
  },
  {
   "property": "C86",
   "status": "proved",
   "theorems": [
    "C86_system",
    "C86_completes",
    "C86_memory",
    "C86_pready_only_when_done",
    "C86_reset_ends_access"
   ],
   "note": "The first three without resets; in every history with resets pready is asserted only when the accesses are done, and reset ends the access in progress. An access of the target takes effect and returns in one step, at any time after it was begun; the target is used by this slave only."
  },
  {
   "property": "C87",
   "status": "proved",
   "theorems": [
    "C87_lite_write_system",
    "C87_lite_write_memory",
    "C87_lite_write_completes",
    "C87_lite_slave_writes"
   ],
   "note": "Without resets, channels as in C56. An access of the target takes effect and returns in one step, at any time after it was begun. Reads make one access per word; C57 has it as a step of its own."
  },
  {
   "property": "C88",
   "status": "proved",
   "theorems": [
    "C88_write_system",
    "C88_write_memory",
    "C88_write_completes",
    "C88_slave_writes"
   ],
   "note": "Without resets, channels as in C52; INCR operations of the master, every burst type for the slave alone. An access of the target takes effect and returns in one step, at any time after it was begun. Reads make one access per beat; C54 has it as a step of its own."
  },
  {
   "property": "C89",
   "status": "proved",
   "theorems": [
    "C89_read_data",
    "C89_lite_read_data"
   ],
   "note": "AXI, and AXI-Lite and APB, which share the loop. For the R beats of one operation in the order of its bursts; C54 has the interleaving of IDs. FIXED and WRAP reads are those of C26: lanes follow incrementing addresses."
  },
  {
   "property": "C90",
   "status": "partial",
   "theorems": [
    "C90_wrap_write_partial",
    "C90_wrap_write_refuted",
    "C90_wrap_narrow_refuted"
   ],
   "note": "Proved when the container is a multiple of the bus width, the burst is at most max_burst_len and the incrementing addresses do not cross a 4 KB boundary. False otherwise: a burst whose container ends at a 4 KB boundary is split there (witness), and containers narrower than the bus use wrong lanes (witness)."
  },
  {
   "property": "C91",
   "status": "partial",
   "theorems": [
    "C91_fixed_read_exact",
    "C91_wrap_read_partial",
    "C91_wrap_read_refuted",
    "C91_wrap_narrow_refuted"
   ],
   "note": "FIXED reads are exact for every beat size, address, length and burst split. WRAP reads are proved when the container is a multiple of the bus width, the burst is at most max_burst_len and the incrementing addresses do not cross a 4 KB boundary; False otherwise: a container that ends at a 4 KB boundary is split there, and a container narrower than the bus is read from wrong lanes (witnesses)."
  }
 ]
}