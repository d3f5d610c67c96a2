{
 "claims": [
  {
   "property": "C01",
   "status": "proved",
   "theorems": [
    "C01_axis_roundtrip",
    "C01_axis_truncation",
    "C01_flit_count",
    "C01_flit_fits",
    "C01_tdest_local",
    "C01_tdest_cross",
    "C01_tid"
   ],
   "note": "All field widths are parameters; repo_widths instantiates the example configuration in the Examples."
  },
  {
   "property": "C02",
   "status": "proved",
   "theorems": [
    "C02_exactly_once",
    "C02_packet_shape",
    "C02_packet_payload",
    "C02_progress"
   ],
   "note": "Any schedule of the three clocks. BookSim's credit check is an arbitrary boolean per instant. tkeep/tstrb are never read after capture and are not modelled."
  },
  {
   "property": "C03",
   "status": "proved",
   "theorems": [
    "C03_bounds",
    "C03_one_ready"
   ],
   "note": ""
  },
  {
   "property": "C04",
   "status": "proved",
   "theorems": [
    "C04_fixed_priority",
    "C04_lowest_served",
    "C04_no_starvation_refuted"
   ],
   "note": "The expected absence of starvation is refuted."
  },
  {
   "property": "C05",
   "status": "proved",
   "theorems": [
    "C05_whole_once_in_order",
    "C05_all_delivered"
   ],
   "note": "All schedules, interleavings and stalls. Delivery of every complete packet is proved after a bounded number of rounds in which all three threads run. Packets longer than the ejection FIFO are C56; packets longer than the receiver expects are C57."
  },
  {
   "property": "C06",
   "status": "proved",
   "theorems": [
    "C06_valid_stable",
    "C06_accept_port"
   ],
   "note": "From every reachable state, with no assumption on the arriving flits."
  },
  {
   "property": "C07",
   "status": "proved",
   "theorems": [
    "C07_credits_conserved",
    "C07_no_credit_invented",
    "C07_extra_credit_lost",
    "C07_slots_conserved",
    "C07_one_free_per_edge"
   ],
   "note": "Both halves of the statement. The adapter half (slots) is proved for the AXI-S master adapter."
  },
  {
   "property": "C08",
   "status": "proved",
   "theorems": [
    "C08_address",
    "C08_address_whole",
    "C08_data",
    "C08_narrow",
    "C08_burst_refuted",
    "C08_address_refuted"
   ],
   "note": "C08_burst_refuted: burst settings are wrong. C08_narrow: what happens for narrow links."
  },
  {
   "property": "C09",
   "status": "proved",
   "theorems": [
    "C09_read",
    "C09_write",
    "C09_write_refuted"
   ],
   "note": ""
  },
  {
   "property": "C10",
   "status": "proved",
   "theorems": [
    "C10_exactly_once",
    "C10_exact_ratio",
    "C10_drained",
    "C10_no_abort",
    "C10_packet",
    "C10_equal_clocks_refuted",
    "C10_extra_edge_refuted"
   ],
   "note": ""
  },
  {
   "property": "C100",
   "status": "proved",
   "theorems": [
    "C100_reading",
    "C100_text",
    "C100_clean",
    "C100_node_latency_refuted",
    "C100_node_first_refuted",
    "C100_routers_refuted"
   ],
   "note": "The refuted ones are what the comment at the head of anynet.cpp promises and the code does not do."
  },
  {
   "property": "C101",
   "status": "proved",
   "theorems": [
    "C101_shortest",
    "C101_one_way",
    "C101_unconnected"
   ],
   "note": "Sums of latencies below the largest int (short) are required; the program does not check it."
  },
  {
   "property": "C102",
   "status": "proved",
   "theorems": [
    "C102_network",
    "C102_in_order",
    "C102_links"
   ],
   "note": "Over the router and network model of C78-C80."
  },
  {
   "property": "C103",
   "status": "proved",
   "theorems": [
    "C103_ranked",
    "C103_tree",
    "C103_shipped",
    "C103_ring_refuted"
   ],
   "note": "The ring has no ranks; the run in C103_ring_refuted shows 20 flits that are still inside after 18 cycles while one packet alone gets through in 16; that they stay for ever is not proved."
  },
  {
   "property": "C104",
   "status": "proved",
   "theorems": [
    "C104_client"
   ],
   "note": "Reset is over; the FIFO is the one of 16 entries that client.cpp creates."
  },
  {
   "property": "C105",
   "status": "proved",
   "theorems": [
    "C105_passes",
    "C105_finishes",
    "C105_drawn",
    "C105_range_refuted"
   ],
   "note": "The bound of C105_finishes counts from the moment the NoC has taken all numbers; that it takes them is part of C104 as far as the client goes."
  },
  {
   "property": "C106",
   "status": "proved",
   "theorems": [
    "C106_wired",
    "C106_way",
    "C106_network",
    "C106_in_order"
   ],
   "note": "k and n at least 1; over the router and network model of C78-C80."
  },
  {
   "property": "C107",
   "status": "proved",
   "theorems": [
    "C107_delivers"
   ],
   "note": "Over the drain theorem of C96."
  },
  {
   "property": "C108",
   "status": "proved",
   "theorems": [
    "C108_wired",
    "C108_way",
    "C108_network",
    "C108_order_refuted"
   ],
   "note": "k and n at least 1; over the router and network model of C78-C80."
  },
  {
   "property": "C109",
   "status": "proved",
   "theorems": [
    "C109_delivers"
   ],
   "note": "Over the drain theorem of C96."
  },
  {
   "property": "C11",
   "status": "proved",
   "theorems": [
    "C11_address",
    "C11_last_address",
    "C11_own_address",
    "C11_waits",
    "C11_own_address_refuted"
   ],
   "note": ""
  },
  {
   "property": "C110",
   "status": "proved",
   "theorems": [
    "C110_pause",
    "C110_requests",
    "C110_shifted_refuted"
   ],
   "note": "Reset is over; the driver has the clock of the requester; the numbers of the transactions are in the model but not in the statement."
  },
  {
   "property": "C111",
   "status": "proved",
   "theorems": [
    "C111_responses",
    "C111_shifted_refuted"
   ],
   "note": "Reset is over; what stands at the request channels is arbitrary; data are unbounded numbers."
  },
  {
   "property": "C112",
   "status": "proved",
   "theorems": [
    "C112_wired",
    "C112_way",
    "C112_network",
    "C112_delivers"
   ],
   "note": "The size is fixed by assertions in the code; the wiring is checked by computation over all ports."
  },
  {
   "property": "C113",
   "status": "proved",
   "theorems": [
    "C113_wired",
    "C113_way",
    "C113_anca",
    "C113_network",
    "C113_delivers"
   ],
   "note": "The size is fixed by assertions in the code; the wiring is checked by computation over all ports."
  },
  {
   "property": "C114",
   "status": "proved",
   "theorems": [
    "C114_start",
    "C114_bitcomp",
    "C114_transpose",
    "C114_bitrev",
    "C114_shuffle",
    "C114_digits",
    "C114_random"
   ],
   "note": "Numbers are unbounded; the random numbers are arguments."
  },
  {
   "property": "C115",
   "status": "proved",
   "theorems": [
    "C115_range",
    "C115_asymmetric_refuted",
    "C115_dragon",
    "C115_yarc",
    "C115_yarc_refuted",
    "C115_hotspot"
   ],
   "note": "Numbers are unbounded; the random numbers are arguments. The two exceptions are shown by the theorems with the suffix _refuted."
  },
  {
   "property": "C116",
   "status": "proved",
   "theorems": [
    "C116_add",
    "C116_remove",
    "C116_remove_refuted",
    "C116_match",
    "C116_end",
    "C116_served",
    "C116_update"
   ],
   "note": "Numbers are unbounded. What is read at the end of the list is an arbitrary number; formally that read is undefined behaviour."
  },
  {
   "property": "C117",
   "status": "proved",
   "theorems": [
    "C117_chaos_mesh",
    "C117_chaos_torus",
    "C117_planar",
    "C117_planar_refuted",
    "C117_planar_fault_refuted",
    "C117_planar_delivers",
    "C117_chaos_delivers"
   ],
   "note": "Faulty outputs and the random number are arguments. The chaos router itself is not modelled."
  },
  {
   "property": "C118",
   "status": "proved",
   "theorems": [
    "C118_unset",
    "C118_fails_refuted",
    "C118_turns",
    "C118_ejects"
   ],
   "note": "The value of the variable is an argument; formally its use is undefined behaviour."
  },
  {
   "property": "C119",
   "status": "proved",
   "theorems": [
    "C119_delivers",
    "C119_share",
    "C119_no_deadlock",
    "C119_too_few",
    "C119_injects"
   ],
   "note": ""
  },
  {
   "property": "C12",
   "status": "proved",
   "theorems": [
    "C12_request_roundtrip",
    "C12_response_roundtrip",
    "C12_generated_config"
   ],
   "note": "All disjoint ranges, all types; the generated five-type configuration is an instance."
  },
  {
   "property": "C120",
   "status": "proved",
   "theorems": [
    "C120_delivers",
    "C120_no_deadlock",
    "C120_one",
    "C120_escape",
    "C120_ejects",
    "C120_two",
    "C120_beyond_refuted",
    "C120_injects"
   ],
   "note": "The routing function is called once per hop; the partition stored in the flit is that of the last call."
  },
  {
   "property": "C121",
   "status": "proved",
   "theorems": [
    "C121_delivers",
    "C121_share",
    "C121_no_deadlock",
    "C121_injects",
    "C121_new",
    "C121_as_romm"
   ],
   "note": ""
  },
  {
   "property": "C122",
   "status": "proved",
   "theorems": [
    "C122_passes_refuted",
    "C122_livelock_refuted",
    "C122_phase"
   ],
   "note": "The value of the variable is an argument; formally its use is undefined behaviour."
  },
  {
   "property": "C123",
   "status": "proved",
   "theorems": [
    "C123_load",
    "C123_probability_refuted",
    "C123_never_refuted",
    "C123_divides_refuted",
    "C123_test",
    "C123_bernoulli"
   ],
   "note": "Doubles are rational numbers and are not rounded. Reading the parameters from a string is not modelled."
  },
  {
   "property": "C124",
   "status": "proved",
   "theorems": [
    "C124_counts",
    "C124_average",
    "C124_variance_refuted"
   ],
   "note": "Doubles are rational numbers and are not rounded; a sample is a number, not NaN; the conversion of the bin to int is exact."
  },
  {
   "property": "C13",
   "status": "proved",
   "theorems": [
    "C13_ranges_partition",
    "C13_accepts"
   ],
   "note": "Counts of at least 1; int(a/b) of the script is taken as the exact quotient."
  },
  {
   "property": "C14",
   "status": "proved",
   "theorems": [
    "C14_base_decodes",
    "C14_base_exists",
    "C14_regions_disjoint",
    "C14_two_nocs_refuted",
    "C14_other_width_refuted",
    "C14_one_node_undefined"
   ],
   "note": "Proved under the stated condition (one NoC, matching width); the condition is shown to be needed by two refutations, and one node gives an undefined shift."
  },
  {
   "property": "C15",
   "status": "proved",
   "theorems": [
    "C15_ids_gapless",
    "C15_all_placed",
    "C15_adapter_agrees",
    "C15_no_mix",
    "C15_no_mix_empty_module_refuted",
    "C15_repeated_port_refuted"
   ],
   "note": "C15_no_mix assumes every module named in an AXI-S line has an AXI-S port; without it the statement is refuted. A port named twice gets two ids (refuted witness)."
  },
  {
   "property": "C16",
   "status": "proved",
   "theorems": [
    "C16_address",
    "C16_end_to_end"
   ],
   "note": "Portals, network and destination rewriting; for transactions the network keeps (C18 says when it drops). Transport inside a NoC is not part of this claim. Portals and network on one clock."
  },
  {
   "property": "C17",
   "status": "proved",
   "theorems": [
    "C17_order_latency",
    "C17_one_per_cycle",
    "C17_delivered",
    "C17_runs"
   ],
   "note": "For transactions that are kept."
  },
  {
   "property": "C18",
   "status": "proved",
   "theorems": [
    "C18_drop_exact",
    "C18_no_loss_refuted"
   ],
   "note": "The expected absence of loss is refuted."
  },
  {
   "property": "C19",
   "status": "proved",
   "theorems": [
    "C19_bandwidth",
    "C19_first_window_refuted"
   ],
   "note": "For windows that start after the two start-up edges; the first window with traffic can exceed it by one (refuted witness)."
  },
  {
   "property": "C20",
   "status": "proved",
   "theorems": [
    "C20_lossless_queue",
    "C20_payload_stable",
    "C20_drains"
   ],
   "note": "Outside reset; queue unbounded as in the code."
  },
  {
   "property": "C21",
   "status": "proved",
   "theorems": [
    "C21_ids_fresh",
    "C21_record",
    "C21_volumes",
    "C21_volume_overflow_refuted"
   ],
   "note": "Volumes below 2^32 bits per node pair; above the unsigned int wraps (refuted witness). int id counter assumed not to overflow; times exact instead of double."
  },
  {
   "property": "C22",
   "status": "proved",
   "theorems": [
    "C22_isolated",
    "C22_shared_isolated",
    "C22_last_write"
   ],
   "note": "stoi/stod are arbitrary functions; splitting of lines into words is not modelled."
  },
  {
   "property": "C23",
   "status": "proved",
   "theorems": [
    "C23_stops_when_all_done",
    "C23_runs_while_not_done",
    "C23_exit_status",
    "C23_exit_status_refuted"
   ],
   "note": "The expectation that any failure shows in the exit status is refuted."
  },
  {
   "property": "C24",
   "status": "proved",
   "theorems": [
    "C24_sound",
    "C24_turn",
    "C24_no_starvation"
   ],
   "note": "Between Clear calls each input requests at most once (else the code asserts)."
  },
  {
   "property": "C25",
   "status": "proved",
   "theorems": [
    "C25_sound",
    "C25_least_recent",
    "C25_no_starvation"
   ],
   "note": ""
  },
  {
   "property": "C26",
   "status": "proved",
   "theorems": [
    "C26_sound",
    "C26_constructible"
   ],
   "note": "At most one Arbitrate call per round (a second one fails an assert in the global arbiter). The type string is given parsed."
  },
  {
   "property": "C27",
   "status": "proved",
   "theorems": [
    "C27_matching",
    "C27_progress"
   ],
   "note": "From any pointer state, over any sequence of rounds."
  },
  {
   "property": "C28",
   "status": "proved",
   "theorems": [
    "C28_matching",
    "C28_progress"
   ],
   "note": "The random numbers are an arbitrary stream."
  },
  {
   "property": "C29",
   "status": "proved",
   "theorems": [
    "C29_stable",
    "C29_maximal"
   ],
   "note": "Both kinds (with and without skipping of diagonals)."
  },
  {
   "property": "C30",
   "status": "proved",
   "theorems": [
    "C30_input_first",
    "C30_output_first",
    "C30_progress"
   ],
   "note": "At least one port on each side."
  },
  {
   "property": "C31",
   "status": "proved",
   "theorems": [
    "C31_loa",
    "C31_selalloc",
    "C31_selalloc_refuted"
   ],
   "note": "SelAlloc with one iteration; refuted for every larger number."
  },
  {
   "property": "C32",
   "status": "proved",
   "theorems": [
    "C32_maximum",
    "C32_out_of_bounds_refuted"
   ],
   "note": "For outputs <= inputs; refuted for every size with more outputs than inputs."
  },
  {
   "property": "C33",
   "status": "proved",
   "theorems": [
    "C33_exact",
    "C33_zero_size_refuted"
   ],
   "note": "A legal event is one the router issues: a channel is taken when free, a flit is sent when its packet holds the channel and it is not full, a credit returns a flit that was sent."
  },
  {
   "property": "C34",
   "status": "proved",
   "theorems": [
    "C34_order",
    "C34_delay",
    "C34_two_sends_refuted"
   ],
   "note": "Delay counted from the cycle that reads the flit."
  },
  {
   "property": "C35",
   "status": "proved",
   "theorems": [
    "C35_cycles",
    "C35_cycles_refuted",
    "C35_wrap_refuted",
    "C35_stage",
    "C35_stage_refuted",
    "C35_stall_refuted",
    "C35_stage_busy"
   ],
   "note": "The claim that delays are in cycles is refuted; the exact behaviour is proved instead. A stage is the queue of one of the stages of the router, without what it does for an entry."
  },
  {
   "property": "C36",
   "status": "proved",
   "theorems": [
    "C36_dim_order",
    "C36_per_destination",
    "C36_xy_yx",
    "C36_min_adapt",
    "C36_romm",
    "C36_torus",
    "C36_arrives",
    "C36_shortest",
    "C36_rectangle",
    "C36_valiant"
   ],
   "note": "romm_ni, planar_adapt, chaos and the adaptive torus functions are not modelled."
  },
  {
   "property": "C37",
   "status": "proved",
   "theorems": [
    "C37_dim_order",
    "C37_per_destination",
    "C37_xy_yx",
    "C37_min_adapt",
    "C37_romm",
    "C37_torus",
    "C37_valiant_refuted"
   ],
   "note": ""
  },
  {
   "property": "C38",
   "status": "proved",
   "theorems": [
    "C38_wiring",
    "C38_neighbours",
    "C38_channels"
   ],
   "note": ""
  },
  {
   "property": "C39",
   "status": "proved",
   "theorems": [
    "C39_router"
   ],
   "note": "One router with the settings RAD-Sim writes: no speculation, hold, noq or speedup; delays of the allocators and the crossbar are one."
  },
  {
   "property": "C40",
   "status": "proved",
   "theorems": [
    "C40_packets"
   ],
   "note": "One router with the settings RAD-Sim writes: no speculation, hold, noq or speedup; delays of the allocators and the crossbar are one."
  },
  {
   "property": "C41",
   "status": "proved",
   "theorems": [
    "C41_room",
    "C41_private",
    "C41_credits"
   ],
   "note": "One router with the settings RAD-Sim writes: no speculation, hold, noq or speedup; delays of the allocators and the crossbar are one."
  },
  {
   "property": "C42",
   "status": "proved",
   "theorems": [
    "C42_mapping",
    "C42_decode",
    "C42_injective",
    "C42_surjective",
    "C42_in_range",
    "C42_beyond",
    "C42_refuted"
   ],
   "note": "The number of channels must be a power of two; C42_refuted shows what happens otherwise."
  },
  {
   "property": "C43",
   "status": "proved",
   "theorems": [
    "C43_dram",
    "C43_order",
    "C43_delivered",
    "C43_no_abort",
    "C43_refuted"
   ],
   "note": "One channel; C42 puts each address on the channel it was issued for. rid, bid and the response codes are never driven by the code and are not modelled. C43_refuted: data without address."
  },
  {
   "property": "C44",
   "status": "proved",
   "theorems": [
    "C44_stored",
    "C44_burst",
    "C44_refuted"
   ],
   "note": "C44_refuted: beats wider than a word."
  },
  {
   "property": "C45",
   "status": "proved",
   "theorems": [
    "C45_fresh"
   ],
   "note": ""
  },
  {
   "property": "C46",
   "status": "proved",
   "theorems": [
    "C46_legal",
    "C46_no_abort",
    "C46_refuted"
   ],
   "note": "C46_refuted: a transaction for a rank in self-refresh aborts the simulation."
  },
  {
   "property": "C47",
   "status": "proved",
   "theorems": [
    "C47_delay",
    "C47_refuted"
   ],
   "note": "C47_refuted: tRFCb is not kept after the refresh of a bank."
  },
  {
   "property": "C48",
   "status": "proved",
   "theorems": [
    "C48_faw",
    "C48_32aw"
   ],
   "note": ""
  },
  {
   "property": "C49",
   "status": "proved",
   "theorems": [
    "C49_served",
    "C49_ranks",
    "C49_banks",
    "C49_refuted",
    "C49_spacing",
    "C49_lag_refuted"
   ],
   "note": "Without self-refresh. C49_refuted: the simultaneous policy never asks the second rank."
  },
  {
   "property": "C50",
   "status": "proved",
   "theorems": [
    "C50_conservation",
    "C50_writes",
    "C46_no_abort",
    "C50_served",
    "C50_gap",
    "C50_refuted"
   ],
   "note": "C50_refuted: with two ranks and dual commands a read is lost."
  },
  {
   "property": "C51",
   "status": "proved",
   "theorems": [
    "C51_pool",
    "C51_double_free_refuted"
   ],
   "note": "The three pools run the same code."
  },
  {
   "property": "C52",
   "status": "proved",
   "theorems": [
    "C52_exact",
    "C52_knobs_refuted",
    "C52_bounded"
   ],
   "note": "Floats are the binary64 specification of the standard library."
  },
  {
   "property": "C53",
   "status": "proved",
   "theorems": [
    "C53_hops",
    "C53_metric",
    "C53_wide_refuted"
   ],
   "note": ""
  },
  {
   "property": "C54",
   "status": "proved",
   "theorems": [
    "C54_double_monotone",
    "C54_double_exact",
    "C54_exact",
    "C54_double_refuted"
   ],
   "note": "The expectation of one step per period is refuted for periods that are not doubles. The first two theorems use Flocq and the axioms of the real numbers of the standard library."
  },
  {
   "property": "C55",
   "status": "proved",
   "theorems": [
    "C55_end_to_end",
    "C55_all_arrive",
    "C55_sender_order_refuted"
   ],
   "note": "The NoC is any function that meets the predicate noc of EndToEndSpec.v. C55_sender_order_refuted: order is lost between virtual channels."
  },
  {
   "property": "C56",
   "status": "proved",
   "theorems": [
    "C56_long_packet_stuck"
   ],
   "note": ""
  },
  {
   "property": "C57",
   "status": "proved",
   "theorems": [
    "C57_delivered_per_transfer",
    "C57_all_delivered",
    "C57_single_delivery_refuted"
   ],
   "note": "The expectation of one delivery is refuted; the exact number is proved."
  },
  {
   "property": "C58",
   "status": "proved",
   "theorems": [
    "C58_types_have_channels_exact",
    "C58_types_have_channels_refuted"
   ],
   "note": "The expectation that all five types always have a channel is refuted."
  },
  {
   "property": "C59",
   "status": "proved",
   "theorems": [
    "C59_adapter_clock_first",
    "C59_adapter_clock_right",
    "C59_adapter_clock_refuted"
   ],
   "note": "The expectation that the clock is right for every port is refuted."
  },
  {
   "property": "C60",
   "status": "proved",
   "theorems": [
    "C60_reset_exact",
    "C60_reset_no_duplicate_refuted"
   ],
   "note": "The expectation that nothing is handed over twice is refuted."
  },
  {
   "property": "C61",
   "status": "proved",
   "theorems": [
    "C61_sum_of_devices",
    "C61_per_device_refuted"
   ],
   "note": "The expectation that a dump is per device is refuted."
  },
  {
   "property": "C62",
   "status": "proved",
   "theorems": [
    "C62_no_starvation"
   ],
   "note": "Rounds of requests, Arbitrate, optional UpdateState, Clear."
  },
  {
   "property": "C63",
   "status": "proved",
   "theorems": [
    "C63_shared",
    "C63_limited",
    "C63_shifting_refuted",
    "C63_feedback",
    "C63_simple_feedback",
    "C63_constructible"
   ],
   "note": "For every split the constructor accepts."
  },
  {
   "property": "C64",
   "status": "proved",
   "theorems": [
    "C64_own_channels",
    "C64_injection",
    "C64_min_adapt_refuted",
    "C64_one_channel_refuted"
   ],
   "note": ""
  },
  {
   "property": "C65",
   "status": "proved",
   "theorems": [
    "C65_alike",
    "C65_other_radix_refuted"
   ],
   "note": "dim_order_mesh only."
  },
  {
   "property": "C66",
   "status": "proved",
   "theorems": [
    "C66_adaptive_refuted"
   ],
   "note": "Refutes the expectation that every productive direction is offered."
  },
  {
   "property": "C67",
   "status": "proved",
   "theorems": [
    "C67_after",
    "C67_users",
    "C67_refuted"
   ],
   "note": "C67_refuted with the DRAM simulator and five single writes."
  },
  {
   "property": "C68",
   "status": "proved",
   "theorems": [
    "C68_taken",
    "C68_refuted",
    "C68_lost_refuted"
   ],
   "note": ""
  },
  {
   "property": "C69",
   "status": "proved",
   "theorems": [
    "C69_queue",
    "C69_queue_refuted"
   ],
   "note": ""
  },
  {
   "property": "C70",
   "status": "proved",
   "theorems": [
    "C70_response"
   ],
   "note": ""
  },
  {
   "property": "C71",
   "status": "proved",
   "theorems": [
    "C71_whole_once_in_order",
    "C71_all_shown",
    "C71_two_channels_refuted"
   ],
   "note": "C71_two_channels_refuted: mixing when a type has two virtual channels."
  },
  {
   "property": "C72",
   "status": "proved",
   "theorems": [
    "C72_one_edge",
    "C72_steady_taken",
    "C72_ready_falls_refuted"
   ],
   "note": ""
  },
  {
   "property": "C73",
   "status": "proved",
   "theorems": [
    "C73_long_packet_stuck"
   ],
   "note": ""
  },
  {
   "property": "C74",
   "status": "proved",
   "theorems": [
    "C74_head_blocks",
    "C74_independent_channels_refuted"
   ],
   "note": ""
  },
  {
   "property": "C75",
   "status": "proved",
   "theorems": [
    "C75_end_to_end",
    "C75_all_arrive"
   ],
   "note": "The NoC is any function that meets the predicate xnoc of EndToEndMMSpec.v."
  },
  {
   "property": "C76",
   "status": "proved",
   "theorems": [
    "C76_network"
   ],
   "note": ""
  },
  {
   "property": "C77",
   "status": "proved",
   "theorems": [
    "C77_conservation"
   ],
   "note": ""
  },
  {
   "property": "C78",
   "status": "proved",
   "theorems": [
    "C78_whole"
   ],
   "note": ""
  },
  {
   "property": "C79",
   "status": "proved",
   "theorems": [
    "C79_order"
   ],
   "note": ""
  },
  {
   "property": "C80",
   "status": "proved",
   "theorems": [
    "C80_cube_wired",
    "C80_cube",
    "C80_routing"
   ],
   "note": "C80_routing shows that the four routing functions meet the hypotheses of C80_cube."
  },
  {
   "property": "C81",
   "status": "proved",
   "theorems": [
    "C81_in_order",
    "C81_two_channels_refuted"
   ],
   "note": "In order with one virtual channel per type; refuted with two."
  },
  {
   "property": "C82",
   "status": "proved",
   "theorems": [
    "C82_terminals",
    "C82_turns_refuted"
   ],
   "note": "The witness shows that taking turns is needed."
  },
  {
   "property": "C83",
   "status": "proved",
   "theorems": [
    "C83_mesh"
   ],
   "note": ""
  },
  {
   "property": "C84",
   "status": "proved",
   "theorems": [
    "C84_system",
    "C84_depth_refuted"
   ],
   "note": "C84_depth_refuted: the condition on the ejection FIFOs is needed."
  },
  {
   "property": "C85",
   "status": "proved",
   "theorems": [
    "C85_system"
   ],
   "note": "The history is one for the node; it is not said how transactions of different senders or types are interleaved in it."
  },
  {
   "property": "C86",
   "status": "proved",
   "theorems": [
    "C86_too_long",
    "C86_too_long_stream"
   ],
   "note": "For AXI-S the theorem asks for long packets on all interfaces."
  },
  {
   "property": "C87",
   "status": "proved",
   "theorems": [
    "C87_engine",
    "C87_zeros_refuted"
   ],
   "note": "The engine receives no instructions and no weights in these executions; they are loaded before."
  },
  {
   "property": "C88",
   "status": "proved",
   "theorems": [
    "C88_engine_sends_all"
   ],
   "note": ""
  },
  {
   "property": "C89",
   "status": "proved",
   "theorems": [
    "C89_lanes",
    "C89_results"
   ],
   "note": ""
  },
  {
   "property": "C90",
   "status": "proved",
   "theorems": [
    "C90_compiled",
    "C90_golden"
   ],
   "note": "Instruction level; C87 connects it to the engine. Memories deep enough is a condition (the constructor exits or the program overruns otherwise)."
  },
  {
   "property": "C91",
   "status": "proved",
   "theorems": [
    "C91_mlp",
    "C91_padding_refuted"
   ],
   "note": "The network between the engines is the relation connected: per sender and receiver in order; C84 proves this of adapters and mesh."
  },
  {
   "property": "C92",
   "status": "proved",
   "theorems": [
    "C92_mlp_complete"
   ],
   "note": "Delivery of everything sent is a hypothesis."
  },
  {
   "property": "C93",
   "status": "proved",
   "theorems": [
    "C93_dispatcher"
   ],
   "note": "Driver and modules with the same clock, as in the configuration of the repository."
  },
  {
   "property": "C94",
   "status": "proved",
   "theorems": [
    "C94_collector"
   ],
   "note": "Driver and modules with the same clock."
  },
  {
   "property": "C95",
   "status": "proved",
   "theorems": [
    "C95_test",
    "C95_success",
    "C95_range_refuted"
   ],
   "note": "The network is the relation wired: per sender and receiver in order (C84). Arrival of everything sent is a hypothesis of C95_success."
  },
  {
   "property": "C96",
   "status": "proved",
   "theorems": [
    "C96_drains",
    "C96_continues",
    "C96_allocators"
   ],
   "note": "Routers as modelled in IqRouterModel.v (no speculation, no hold_switch_for_packet, no VC busy when full). Private buffers; the shared policies are not covered, nor routing with ranks only on escape channels."
  },
  {
   "property": "C97",
   "status": "proved",
   "theorems": [
    "C97_mesh_drains"
   ],
   "note": "The delivery is at the ports of the network; nodes are as in C96."
  },
  {
   "property": "C98",
   "status": "proved",
   "theorems": [
    "C98_system_delivers",
    "C98_hurried_refuted"
   ],
   "note": "The bound is B * (1 + transactions accepted) rounds; B comes from the potential of C96. C98_hurried_refuted: without the condition on the unpacking threads a system with three nodes never comes to rest, for any number of rounds. AXI-MM adapters are not covered."
  },
  {
   "property": "C99",
   "status": "proved",
   "theorems": [
    "C99_lost_slots",
    "C99_starved"
   ],
   "note": "Of the code as it is: _ejected_flits keeps one entry per node between two cycles."
  }
 ]
}