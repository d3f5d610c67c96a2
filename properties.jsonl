{"id": "C01", "title": "AXI-S payload survives packetisation", "statement": "Take any AXI-S transaction sent through the NoC from an adapter configured for data width w. Splitting it into flits and reassembling those flits at the receiver gives back tlast, tuser and the data bits. The recovered data equals the sent data whenever the data fits in w bits. Otherwise exactly the bits beyond the last flit are lost. tdest comes back unchanged, and only the low five bits of tid survive as the destination interface.", "quantifier": "all data words, user words, last flags, tid, tdest values and all configured data widths 1..512", "why_tests_cant": "There are 2^588 payloads for each of 512 widths; a test samples a handful and the boundary bits of the last partial flit are easy to miss.", "anchors": ["rad-sim/sim/noc/noc_utils.cpp:set_flit_payload", "rad-sim/sim/noc/axis_slave_adapter.cpp:InputPacketization", "rad-sim/sim/noc/axis_master_adapter.cpp:OutputDepacketization,write_sc_packet_to_axis_output", "rad-sim/sim/radsim_defines.hpp"]}
{"id": "C02", "title": "AXI-S accepted transactions are injected exactly once and in order", "statement": "Each transaction accepted by an AXI-S NoC slave adapter (tvalid and tready both high at a node clock edge) becomes exactly one packet handed to the NoC. Packets of one interface leave in acceptance order. Every packet is a head flit, then body flits, then a tail flit. The packets carry the accepted payloads and nothing else is ever injected.", "quantifier": "every interleaving of node, adapter and NoC clock edges, every stimulus on every interface, every pattern of NoC credit back-pressure", "why_tests_cant": "The adapter has three clock domains communicating through queues and shared flags; the number of interleavings is unbounded and simulation exercises one fixed set of clock ratios.", "anchors": ["rad-sim/sim/noc/axis_slave_adapter.cpp:InputReady,InputInterface,InputPacketization,InputInjection"]}
{"id": "C03", "title": "AXI-S slave adapter back-pressure never over-fills its buffers", "statement": "At any moment an AXI-S slave adapter offers tready to at most one interface. Its capture FIFO never holds more than two transactions. Its flit injection FIFO never holds more flits than its configured depth.", "quantifier": "every schedule of the three clocks, every stimulus and every NoC stall pattern, every number of interfaces and every configured FIFO depth that holds one packet", "why_tests_cant": "Overflow needs a particular alignment of clock edges with back-pressure; tests run a few ratios only.", "anchors": ["rad-sim/sim/noc/axis_slave_adapter.cpp:InputReady,InputInterface,InputPacketization"]}
{"id": "C04", "title": "AXI-S slave adapter interface arbitration is a fixed priority and can starve", "statement": "In every state only the lowest-numbered requesting interface of an AXI-S slave adapter is accepted, and it is accepted at the next node clock edge unless a buffer was full at the previous edge. So the round robin that the code sets up does not happen: there are infinite request patterns under which a waiting interface is never accepted.", "quantifier": "every number of interfaces and every infinite request pattern", "why_tests_cant": "A fairness claim is about infinite executions.", "anchors": ["rad-sim/sim/noc/axis_slave_adapter.cpp:InputReady"]}
{"id": "C05", "title": "AXI-S master adapter delivers each packet whole, once and in order", "statement": "Flits of different packets that arrive interleaved on different virtual channels are never mixed in one delivered transaction. Each complete packet is delivered exactly once at the interface named in its head flit. Packets of one virtual channel are delivered in arrival order. The delivered fields are those of the packet.", "quantifier": "all interleavings of flit arrivals on all virtual channels, all stalls by the receiving module, all clock interleavings, all packets no longer than the receiving interface expects and no longer than the ejection FIFO", "why_tests_cant": "The interleaving of virtual channels and of the stalls is exponential in the number of packets.", "anchors": ["rad-sim/sim/noc/axis_master_adapter.cpp:OutputEjection,OutputDepacketization,OutputInterface"]}
{"id": "C06", "title": "AXI-S master output obeys the valid/ready rule", "statement": "Once an AXI-S master adapter asserts tvalid on an interface, tvalid stays asserted and all payload signals stay the same until the module accepts the transaction with tready.", "quantifier": "every schedule, every tready pattern, every number of interfaces", "why_tests_cant": "A test only sees the tready patterns it drives.", "anchors": ["rad-sim/sim/noc/axis_master_adapter.cpp:OutputInterface"]}
{"id": "C07", "title": "Ejection credits are conserved between adapters and the NoC", "statement": "The NoC returns to the router exactly one credit for each flit that an ejection adapter has consumed, so no buffer slot is lost and none is invented, as long as a node frees at most one flit between two NoC clock edges. When a node frees more than one in a NoC period the extra credits are lost for good.", "quantifier": "every sequence of adapter and NoC clock edges and every sequence of flit consumptions", "why_tests_cant": "A lost credit only shows up as a slow leak and a late deadlock.", "anchors": ["rad-sim/sim/noc/radsim_noc.cpp:Tick", "rad-sim/sim/noc/axis_master_adapter.cpp:OutputEjection,OutputDepacketization", "rad-sim/sim/noc/aximm_master_adapter.cpp:OutputDepacketization", "rad-sim/sim/noc/aximm_slave_adapter.cpp:OutputDepacketization"]}
{"id": "C08", "title": "AXI-MM requests survive the NoC", "statement": "An AXI-MM read or write address request arrives at the far end with the address, id and user field that were sent, and a write beat with its data, id, user field and last flag, if the widths fit (id in the packet id, 77 bits of request in the data field) and 77 plus the user width plus 0, 1 or 2 is not a multiple of the link width (else the top bits of the address are lost). The burst length, size and type that arrive are not those that were sent: they are bits of the user field.", "quantifier": "all field values of AR, AW and W channel transactions, all widths", "why_tests_cant": "The field space is beyond 2^100; sample tests use few burst settings.", "anchors": ["rad-sim/sim/noc/aximm_slave_adapter.cpp:InputPacketization", "rad-sim/sim/noc/aximm_master_adapter.cpp:OutputDepacketization,OutputInterface"]}
{"id": "C09", "title": "AXI-MM responses survive the NoC", "statement": "An AXI-MM read-data or write response received by the requester has the data, id, response code, last flag and user field that the responder sent; for write responses the link must be wide enough for the user field and the response code. For narrower links the response code is lost.", "quantifier": "all field values of R and B channel transactions, all widths", "why_tests_cant": "The field space is beyond 2^500.", "anchors": ["rad-sim/sim/noc/aximm_master_adapter.cpp:InputPacketization", "rad-sim/sim/noc/aximm_slave_adapter.cpp:OutputDepacketization,OutputInterface"]}
{"id": "C10", "title": "AXI-MM request capture is exactly once", "statement": "Each AXI-MM transaction accepted at a node clock edge is packetised and injected exactly once and in order, when each node clock period contains an adapter edge strictly inside and at most the configured number of adapter edges, in particular when it contains exactly the configured number and that is two or more. Neither adapter stops with a failed assertion. With equal clocks transactions are lost, and with more adapter edges than configured they are duplicated.", "quantifier": "every schedule of node, adapter and NoC edges, every sequence of offers", "why_tests_cant": "The failure depends on clock ratios and on edge alignment, which tests fix.", "anchors": ["rad-sim/sim/noc/aximm_slave_adapter.cpp:InputInterface,InputPacketization", "rad-sim/sim/noc/aximm_master_adapter.cpp:InputInterface,InputPacketization"]}
{"id": "C11", "title": "AXI-MM write data follow their write address", "statement": "AR and AW requests are sent to the node in the top bits of their address. A W beat is accepted only while a burst is open, and is sent to the node of the AW accepted last before it. That is the AW it belongs to, provided the manager finishes all W beats of a burst before it issues the next AW. Without that proviso a W beat can be sent to the wrong node.", "quantifier": "every schedule of node, adapter and NoC edges, every sequence of offers", "why_tests_cant": "The error needs overlapping bursts to different nodes, an ordering tests normally do not drive.", "anchors": ["rad-sim/sim/noc/aximm_slave_adapter.cpp:InputReady,InputInterface,InputPacketization,GetInputDestinationNode"]}
{"id": "C12", "title": "Packet type and virtual channel maps are mutually inverse", "statement": "The receiving adapter recovers the packet type that the sender used to choose a virtual channel, for every packet type and every disjoint assignment of virtual channel ranges.", "quantifier": "all virtual channel range assignments and all packet types", "why_tests_cant": "The number of configurations is unbounded.", "anchors": ["rad-sim/sim/noc/noc_utils.cpp:VCIDFromType", "rad-sim/sim/noc/aximm_master_adapter.cpp:InverseVCMapping", "rad-sim/sim/noc/aximm_slave_adapter.cpp:InverseVCMapping"]}
{"id": "C13", "title": "The generated virtual channel ranges partition the virtual channels", "statement": "Whenever config.py accepts a virtual channel count and a packet type count, the generated begin/end ranges are non-empty, pairwise disjoint, equal in size, and together cover exactly the virtual channels 0..vcs-1.", "quantifier": "all virtual channel counts and packet type counts", "why_tests_cant": "Configurations are unbounded.", "anchors": ["rad-sim/config.py:generate_booksim_config_files"]}
{"id": "C14", "title": "Base addresses address the node they were created for", "statement": "The base address handed out for an AXI-MM port, and every offset below the size of its region, decode at the adapter to the node the port is placed on. Address regions of different ports do not overlap. This needs a single NoC whose node count needs exactly as many bits as the adapter decodes.", "quantifier": "all node counts, NoC counts, node ids and offsets", "why_tests_cant": "Address ranges are 64 bits wide and depend on the configuration.", "anchors": ["rad-sim/sim/design_context.cpp:DetermineBaseAddress", "rad-sim/sim/noc/aximm_slave_adapter.cpp:GetInputDestinationNode"]}
{"id": "C15", "title": "Placement gives every port a unique endpoint", "statement": "After a placement file is parsed, ports on one node and direction have distinct interface ids numbered from zero without gaps. No node hosts both AXI-S and AXI-MM ports.", "quantifier": "all placement files (sequences of placement lines)", "why_tests_cant": "The set of placement files is unbounded.", "anchors": ["rad-sim/sim/design_context.cpp:ParseNoCPlacement"]}
{"id": "C16", "title": "Cross-device addressing reaches the intended node", "statement": "A transaction sent with (device r, remote node n, local node = portal) leaves the source device through its portal, arrives at device r and is delivered at node n of device r with its data, user and last fields unchanged.", "quantifier": "all device counts, device ids, node ids and payloads within the configured field widths", "why_tests_cant": "The space of destinations and payloads is large and the rewriting is done in three separate modules.", "anchors": ["rad-sim/sim/radsim_inter_rad.cpp:writeFifo,readFifo", "rad-sim/sim/portal.cpp:Tick", "rad-sim/sim/noc/axis_slave_adapter.cpp:InputPacketization"]}
{"id": "C17", "title": "The inter-device network keeps order and minimum latency", "statement": "Transactions between devices that are not dropped come out of the destination FIFO in the order they entered, each one no earlier than the configured latency after it entered, and at most one per device per clock cycle.", "quantifier": "every sequence of cycles and arrivals, every latency and every device count", "why_tests_cant": "Ordering and latency must hold for every traffic history.", "anchors": ["rad-sim/sim/radsim_inter_rad.cpp:writeFifo,readFifo"]}
{"id": "C18", "title": "The inter-device network drops a transaction exactly when the FIFO of its destination device is full", "statement": "A transaction that handshakes into the inter-device network is dropped exactly when as many transactions as there are slots are inside for its destination device, counted after the earlier handshakes of the same edge and before anything leaves. So the network does lose transactions that it accepted.", "quantifier": "every traffic history and every FIFO size", "why_tests_cant": "Loss needs a full FIFO, which tests with a thousand slots never reach.", "anchors": ["rad-sim/sim/radsim_inter_rad.cpp:writeFifo"]}
{"id": "C19", "title": "Inter-device bandwidth is limited to the configured fraction", "statement": "In every window of `total` consecutive cycles a device accepts at most `accept` transactions from its portal, where accept/total is the configured fraction.", "quantifier": "every traffic history and every fraction", "why_tests_cant": "A rate limit quantifies over every window of every history.", "anchors": ["rad-sim/sim/radsim_inter_rad.cpp:writeFifo", "rad-sim/config.py:get_fraction"]}
{"id": "C20", "title": "The portal is a lossless in-order queue in both directions", "statement": "What the portal presents toward the network is always a prefix of what it accepted, in the same order, without loss or duplication, and payload stays stable while not accepted. The same holds in the other direction.", "quantifier": "every sequence of inputs and ready signals", "why_tests_cant": "Every stall pattern has to be covered.", "anchors": ["rad-sim/sim/portal.cpp:Tick"]}
{"id": "C21", "title": "Telemetry records are unique and complete", "statement": "Each recorded transaction gets a fresh identifier. Later events attach to the transaction that they name and to no other. Dumped traffic volumes equal the sum of the recorded flit payloads between each pair of nodes.", "quantifier": "every sequence of telemetry calls", "why_tests_cant": "The sequence of calls is unbounded.", "anchors": ["rad-sim/sim/radsim_telemetry.cpp"]}
{"id": "C22", "title": "Configuration knobs are isolated per device", "statement": "Reading a knob of one device returns the last value written for that device and knob, and is not changed by writes for other devices or other knobs.", "quantifier": "every knob file", "why_tests_cant": "The set of knob files is unbounded.", "anchors": ["rad-sim/sim/radsim_config.cpp:ParseRADSimKnobs"]}
{"id": "C23", "title": "The cluster stops exactly when every device is done; the exit status shows failures of device 0 only", "statement": "The simulation stops only after every device has declared itself done, and stops within one check after that. The process exit status is non-zero exactly when device 0 reported a failure before the stop; a failure of another device alone leaves it zero.", "quantifier": "every order of completion events and failures and every device count", "why_tests_cant": "Completion orders are exponential in the number of devices.", "anchors": ["rad-sim/sim/radsim_cluster.cpp:AllRADsNotDone", "rad-sim/sim/main.cpp:sc_main"]}
{"id": "C24", "title": "Round-robin arbitration is sound and starvation free", "statement": "The round-robin arbiter only grants a requester, grants whenever there is a request, grants a highest-priority requester, and grants a persistent requester of top priority after at most size-1 other grants.", "quantifier": "all arbiter sizes, request sets, priorities and histories", "why_tests_cant": "Starvation freedom ranges over all histories.", "anchors": ["rad-sim/sim/noc/booksim/arbiters/roundrobin_arb.cpp", "rad-sim/sim/noc/booksim/arbiters/arbiter.cpp"]}
{"id": "C25", "title": "Matrix arbitration is a least-recently-granted order", "statement": "The matrix arbiter always has exactly one winner when there is a request. The winner is a requester of top priority, and among those it is the least recently granted. A persistent top-priority requester waits for at most size-1 other grants.", "quantifier": "all arbiter sizes, request sets, priorities and histories", "why_tests_cant": "Correctness depends on an invariant of the whole priority matrix over all histories.", "anchors": ["rad-sim/sim/noc/booksim/arbiters/matrix_arb.cpp"]}
{"id": "C26", "title": "Tree arbitration is sound and work conserving", "statement": "The tree arbiter only grants a requester and grants whenever there is a request, for every grouping of its inputs.", "quantifier": "all group counts and sizes, request sets and histories", "why_tests_cant": "Group structures are unbounded.", "anchors": ["rad-sim/sim/noc/booksim/arbiters/tree_arb.cpp"]}
{"id": "C27", "title": "iSLIP produces a valid matching and makes progress", "statement": "The iSLIP allocator's result is a matching contained in the requests: each input gets at most one output, each output at most one input, both views agree. With k iterations it has at least k pairs unless no request can be added; so a non-empty request set gets a non-empty matching, and as many iterations as inputs or outputs give a maximal one.", "quantifier": "all sizes, request matrices, pointer states and iteration counts", "why_tests_cant": "The state space of pointers and requests is exponential.", "anchors": ["rad-sim/sim/noc/booksim/allocators/islip.cpp:Allocate"]}
{"id": "C28", "title": "PIM produces a valid matching for every random outcome", "statement": "The parallel iterative matching allocator's result is a matching contained in the requests, whatever the random numbers are. With k iterations it has at least k pairs unless no request can be added.", "quantifier": "all sizes, request matrices, random sequences and iteration counts", "why_tests_cant": "Random outcomes cannot be enumerated.", "anchors": ["rad-sim/sim/noc/booksim/allocators/pim.cpp:Allocate"]}
{"id": "C29", "title": "Wavefront allocation is a maximal matching", "statement": "The wavefront allocator's result is a matching contained in the requests, no remaining request could be added to it, and every refused request shares a port with a granted one of at least its priority.", "quantifier": "all sizes, request matrices and priority pointers", "why_tests_cant": "All request matrices of all sizes.", "anchors": ["rad-sim/sim/noc/booksim/allocators/wavefront.cpp:Allocate"]}
{"id": "C30", "title": "Separable allocators produce a valid matching", "statement": "The separable input-first and output-first allocators produce a matching contained in the requests with every constructible kind of arbiter: each port of the first stage chooses a request of top priority, each chosen port of the second stage is matched with a chooser of top priority. A round with requests has a pair.", "quantifier": "all sizes, request matrices, histories and arbiter types (trees included)", "why_tests_cant": "All request matrices and arbiter states.", "anchors": ["rad-sim/sim/noc/booksim/allocators/separable_input_first.cpp:Allocate", "rad-sim/sim/noc/booksim/allocators/separable_output_first.cpp:Allocate"]}
{"id": "C31", "title": "LOA and SelAlloc produce valid matchings", "statement": "The lonely-output allocator produces a matching contained in the requests in which every requesting input has a least requested output that is matched. SelAlloc with one iteration produces a matching contained in the unmasked requests. With any larger number of iterations it can assign one input to two outputs.", "quantifier": "all sizes, request matrices, pointer states and iteration counts", "why_tests_cant": "The failure needs a second iteration with a particular pointer state.", "anchors": ["rad-sim/sim/noc/booksim/allocators/loa.cpp:Allocate", "rad-sim/sim/noc/booksim/allocators/selalloc.cpp:Allocate"]}
{"id": "C32", "title": "Maximum-size allocation is a matching of maximum size", "statement": "With no more outputs than inputs the maximum-size allocator returns a matching contained in the requests and no other matching in the requests is larger. With more outputs than inputs a legal request makes it read a vector beyond its size.", "quantifier": "all sizes and request matrices", "why_tests_cant": "Optimality compares against every other matching.", "anchors": ["rad-sim/sim/noc/booksim/allocators/maxsize.cpp:Allocate,_ShortestAugmenting"]}
{"id": "C33", "title": "Downstream buffer credit accounting is exact", "statement": "The credit tracker of an output with private buffers never fails a check. Occupancy of each virtual channel equals flits sent minus credits returned and stays within the size of the channel's buffer; the channel is reported full exactly when it is, and free exactly when no packet holds it (and, when so configured, its credits are all back). With buf_size = 0 the first flit ends the simulation.", "quantifier": "every sequence of allocation, send and credit events that the router can issue, all numbers of channels and sizes", "why_tests_cant": "Accounting has to be exact for every history.", "anchors": ["rad-sim/sim/noc/booksim/buffer_state.cpp:BufferState,PrivateBufferPolicy"]}
{"id": "C34", "title": "Network channels deliver in order with constant delay", "statement": "A channel delivers the flits sent through it exactly once and in order at any times, and when simulated time advances one unit per network cycle each comes out exactly the configured number of cycles after it was sent. Two sends in one cycle lose the first flit.", "quantifier": "every send history and every delay", "why_tests_cant": "All histories and delays.", "anchors": ["rad-sim/sim/noc/booksim/channel.hpp:Send,ReadInputs,WriteOutputs"]}
{"id": "C35", "title": "Latency parameters are measured in cycles for the whole simulation", "statement": "Channel and pipeline delays are compared with simulated time in picoseconds, kept in an int. With a clock period of P a channel of delay d takes ceil((d-1)/P) extra cycles, not d-1; a router stage finishes in the same cycle with delay 1, and with a longer delay that is not a whole number of periods ends the simulation; with a delay of several periods a stage is not pipelined: what arrives while an entry is under way starts only when that entry is done, and all of it comes out together one delay later; a flit sent just before the int wraps is held for 2^32 picoseconds, and no router stage finishes anything while the int is negative.", "quantifier": "all clock periods, delays, arrival histories and simulation lengths", "why_tests_cant": "The time counter wraps after two milliseconds of simulated time; short tests never reach it.", "anchors": ["rad-sim/sim/radsim_utils.cpp:GetSimTime", "rad-sim/sim/noc/booksim/channel.hpp", "rad-sim/sim/noc/booksim/routers/iq_router.cpp:_RouteUpdate"]}
{"id": "C36", "title": "Routing on the mesh and the torus reaches the destination on a shortest path", "statement": "A packet that follows any of the choices offered by dim_order, dim_order_ni, dim_order_pni, xy_yx, min_adapt (VCs from 0) or romm on the mesh reaches its destination in exactly the Manhattan distance number of hops, stays in the box between source and destination and never uses a wrap-around link. dim_order and dim_order_bal on the torus need exactly the torus distance. valiant on the mesh needs the distance to its intermediate node plus the distance from there. The ejection port is offered exactly at the destination.", "quantifier": "all radices, dimensions, sources, destinations, VC ranges, random numbers and choices among the offered outputs", "why_tests_cant": "All mesh sizes.", "anchors": ["rad-sim/sim/noc/booksim/routefunc.cpp:dor_next_mesh,dim_order_mesh,dim_order_ni_mesh,dim_order_pni_mesh,xy_yx_mesh,min_adapt_mesh,romm_mesh,valiant_mesh,dor_next_torus,dim_order_torus,dim_order_bal_torus", "rad-sim/sim/noc/booksim/networks/kncube.cpp:_LeftNode,_RightNode"]}
{"id": "C37", "title": "Routing is deadlock free", "statement": "There is no set of packets each of which only waits for channels held by packets of the set, under dim_order, dim_order_ni, dim_order_pni, xy_yx, min_adapt (VCs from 0) and romm on the mesh and dim_order and dim_order_bal on the torus. (valiant on the mesh can deadlock.)", "quantifier": "all network sizes, VC ranges, sets of packets and the channels they hold", "why_tests_cant": "Cyclic waits need many packets in exactly the wrong places.", "anchors": ["rad-sim/sim/noc/booksim/routefunc.cpp:dor_next_mesh,dim_order_mesh,xy_yx_mesh,min_adapt_mesh,romm_mesh,valiant_mesh,dim_order_torus"]}
{"id": "C38", "title": "Mesh and torus wiring is consistent", "statement": "Each network channel has exactly one source port and one sink port. A right output of a node is the left input of its right neighbour and the reverse, so a flit sent out of port p arrives at port p with its lowest bit flipped.", "quantifier": "all radices, dimensions and nodes", "why_tests_cant": "All network sizes.", "anchors": ["rad-sim/sim/noc/booksim/networks/kncube.cpp:_BuildNet,_LeftChannel,_RightChannel,_LeftNode,_RightNode"]}
{"id": "C39", "title": "A router neither loses, duplicates nor reorders flits", "statement": "A flit received by the input-queued router is in its buffer, in the crossbar or was sent on exactly once, unchanged but for its virtual channel and lookahead route. Flits of one input virtual channel leave in arrival order. All flits of a packet use the output port and virtual channel given to its head, which is one of its route set. An inactive router holds no flit. No assertion fails.", "quantifier": "all traffic that obeys credits, all matches of the allocators, all routing results, credit delays, buffer policies and numbers of ports and virtual channels", "why_tests_cant": "Interleavings of arrivals, allocations and credits are unbounded.", "anchors": ["rad-sim/sim/noc/booksim/routers/iq_router.cpp"]}
{"id": "C40", "title": "Packets are never interleaved on an output virtual channel", "statement": "On every output virtual channel of the router, flits of two packets are never interleaved: from a head until its tail all flits on this virtual channel belong to one packet.", "quantifier": "all traffic that obeys credits, all matches of the allocators, credit delays and buffer policies", "why_tests_cant": "Interleavings of arrivals, allocations and credits are unbounded.", "anchors": ["rad-sim/sim/noc/booksim/routers/iq_router.cpp:_VCAllocUpdate,_SWAllocUpdate", "rad-sim/sim/noc/booksim/buffer_state.cpp"]}
{"id": "C41", "title": "A router never over-fills a downstream buffer and returns one credit per flit", "statement": "The flits sent to a downstream buffer and not yet credited never exceed its size; with private buffers this holds for each virtual channel. The router returns exactly one credit upstream, on the same virtual channel, for each flit it takes out of an input buffer, so its input buffers never overflow when the upstream obeys credits.", "quantifier": "all traffic that obeys credits, all matches of the allocators, credit delays and buffer policies", "why_tests_cant": "Interleavings of arrivals, allocations and credits are unbounded.", "anchors": ["rad-sim/sim/noc/booksim/routers/iq_router.cpp:_SWAllocEvaluate,_SWAllocUpdate,_SendCredits", "rad-sim/sim/noc/booksim/buffer_state.cpp"]}
{"id": "C42", "title": "DRAM address translation is a bijection that agrees with the DRAM model", "statement": "For every channel number that the channel field can hold, the memory controller's translation of module addresses is a bijection between the addresses of all channels and the addresses of the memory. It puts the request on the channel it was issued for, and the DRAM model decodes the translated address to the same rank, bank group, bank, row and column fields, all within the geometry. Addresses beyond a channel wrap around. It is false for channel numbers beyond the last power of two.", "quantifier": "all addresses, channel ids, geometries and field orders that the DRAM model accepts, the address having fewer than 64 bits", "why_tests_cant": "Addresses and mapping orders are too many to enumerate.", "anchors": ["rad-sim/sim/dram/mem_controller.cpp:AddressMapping,ChannelFromAddr", "rad-sim/sim/dram/DRAMsim3/src/configuration.cc:AddressMapping,SetAddressMapping"]}
{"id": "C43", "title": "Memory read responses come back in request order, exactly once", "statement": "Whatever the order in which the DRAM completes reads, the memory controller returns read responses in the order of the requests, one for each word, with the user field and last flag of the request; every request has been answered or is in one of its queues. When the DRAM holds no more reads, everything is delivered as fast as it is taken. If write data are offered only for write addresses taken before, no assertion fails and no empty queue is read; otherwise that happens. The DRAM simulator of C50 is such a DRAM.", "quantifier": "all request sequences, all DRAMs that return what they accept, reads in any order and writes in order, both thread orders at every edge", "why_tests_cant": "Completion orders are factorial in the number of requests.", "anchors": ["rad-sim/sim/dram/mem_controller.cpp:MemReadCallback,MemTick"]}
{"id": "C44", "title": "Memory writes are applied in order to the address requested", "statement": "The stores are at every time the first of the writes, in order: the i-th data that were taken at the i-th word address that was taken. The rest is in the queues, and the memory contains the result. A burst takes the word addresses from the base upwards. When a beat is wider than a word, this stores data of one burst at the addresses of another.", "quantifier": "all write sequences, all DRAMs that return what they accept, reads in any order and writes in order, both thread orders at every edge", "why_tests_cant": "The write data are matched by position, so correctness depends on the order of callbacks over all schedules.", "anchors": ["rad-sim/sim/dram/mem_controller.cpp:MemWriteCallback", "rad-sim/sim/dram/DRAMsim3/src/controller.cc:AddTransaction,ReturnDoneTrans"]}
{"id": "C45", "title": "Memory reads see completed writes", "statement": "A read taken after the response of the burst of a write to the same address was returned sees that write or a later one to the address.", "quantifier": "all request sequences, all DRAMs that return what they accept, reads in any order and writes in order, both thread orders at every edge", "why_tests_cant": "Depends on every interleaving of reads, writes and completions.", "anchors": ["rad-sim/sim/dram/mem_controller.cpp"]}
{"id": "C46", "title": "DRAM bank commands are always legal", "statement": "Every command that the DRAM controller issues is legal in the state into which the commands before it have put each bank it concerns: only a closed bank is activated or refreshed, only the open row is read or written, a sleeping bank only wakes. Without self-refresh no check that ends the simulation fires. With self-refresh enabled it does: a transaction for a sleeping rank aborts.", "quantifier": "all configurations, all sequences of offered transactions and clock cycles", "why_tests_cant": "All histories of bank commands.", "anchors": ["rad-sim/sim/dram/DRAMsim3/src/bankstate.cc:GetReadyCommand,UpdateState"]}
{"id": "C47", "title": "DRAM timing constraints hold between every pair of commands", "statement": "For every two commands issued on a channel the later one is issued no earlier than the issue time of the first plus each delay that the first imposes on a bank for which the second waits, according to the table of the timing that UpdateTiming consults for the relation of the banks. The delay tRFCb after the refresh of one bank is in a table that is not consulted, and is not kept.", "quantifier": "all configurations, all timing tables, all sequences of offered transactions and clock cycles, times below 2^64", "why_tests_cant": "Constraints relate every pair of commands in every history.", "anchors": ["rad-sim/sim/dram/DRAMsim3/src/channel_state.cc:UpdateTiming,GetReadyCommand", "rad-sim/sim/dram/DRAMsim3/src/bankstate.cc:UpdateTiming", "rad-sim/sim/dram/DRAMsim3/src/timing.cc"]}
{"id": "C48", "title": "At most four activates fall in a tFAW window", "statement": "The fifth of any five successive activations of a rank is issued no earlier than tFAW after the first. With GDDR the 33rd of any 33 is issued no earlier than t32AW after the first.", "quantifier": "all configurations and all sequences of offered transactions and clock cycles, times below 2^64", "why_tests_cant": "A sliding window property over all histories.", "anchors": ["rad-sim/sim/dram/DRAMsim3/src/channel_state.cc:UpdateActivationTimes,ActivationWindowOk,IsFAWReady,Is32AWReady"]}
{"id": "C49", "title": "Refresh reaches every rank and bank", "statement": "Without self-refresh the refreshes issued, followed by those still waiting, are exactly those due, in order: one each interval, going round the ranks or round the banks, so that as many intervals as there are ranks (banks) ask each of them exactly once. The simultaneous policy asks only the first rank. Refreshes of different banks of a rank are issued at least tREFI apart, so with the bank policy they fall behind what is due.", "quantifier": "all rank, bank group and bank counts, all refresh policies, all sequences of offered transactions and clock cycles", "why_tests_cant": "All geometries.", "anchors": ["rad-sim/sim/dram/DRAMsim3/src/refresh.cc:InsertRefresh,IterateNext"]}
{"id": "C50", "title": "Every DRAM transaction completes exactly once and never aborts", "statement": "Every transaction accepted by the DRAM controller is at every time exactly once in what was returned, what waits to be returned, or the pending reads. Writes are returned in the order of acceptance. Without self-refresh no consistency check fires, and every address with a pending transaction has exactly one entry waiting in the transaction queues or command queues, all other addresses none. With dual commands this needs a positive delay between any two reads or writes; the timing tables have it for one rank, and for two ranks a read is lost.", "quantifier": "all configurations, all sequences of offered transactions and clock cycles", "why_tests_cant": "Merging and forwarding of requests to one address depends on the whole history.", "anchors": ["rad-sim/sim/dram/DRAMsim3/src/controller.cc", "rad-sim/sim/dram/DRAMsim3/src/command_queue.cc"]}
{"id": "C51", "title": "Recycled flits and credits are never shared", "statement": "An object handed out by the flit, credit or payload pool is never handed out again before it was freed, as long as it is freed at most once.", "quantifier": "every sequence of allocations and frees", "why_tests_cant": "All histories.", "anchors": ["rad-sim/sim/noc/sc_flit.cpp:AllocateFlitPayload,FreeFlit", "rad-sim/sim/noc/booksim/flit.cpp:New,Free", "rad-sim/sim/noc/booksim/credit.cpp:New,Free,OutStanding"]}
{"id": "C52", "title": "The configured bandwidth fraction is represented exactly", "statement": "config.py turns a bandwidth fraction into accept and total counters. Their quotient is the fraction exactly when it needs at most one decimal place; with two or three places it never is, and what reaches the knob file is then another bandwidth, but never one above the full bandwidth.", "quantifier": "all whole parts and all thousandths, with the rounding of binary floating point", "why_tests_cant": "All fractions.", "anchors": ["rad-sim/config.py:get_fraction"]}
{"id": "C53", "title": "Hop counts used in telemetry are a metric", "statement": "For grid widths below 65536 the hop count equals one plus the Manhattan distance. For every width and all ids it is symmetric, one for equal nodes, and satisfies the triangle inequality up to that one. Width 0 or 65536 divides by zero.", "quantifier": "all grid widths and node pairs", "why_tests_cant": "All grid sizes.", "anchors": ["rad-sim/sim/radsim_utils.cpp:CalculateXYGridHops"]}
{"id": "C54", "title": "Clock cycle counts are monotone in simulated time, and exact when the period is a double", "statement": "The cycle number reported to modules never decreases as simulated time grows, computed in doubles. When the period is a whole number of picoseconds and exactly a double in nanoseconds, the number is k+1 after edge k up to and including edge k+1, for every time below 2^52 ps and every number that fits an int. For other periods it need not increase by one per period: with 0.7 ns edges 3 and 2 have the same number.", "quantifier": "all times and clock periods", "why_tests_cant": "All times.", "anchors": ["rad-sim/sim/radsim_utils.cpp:GetSimulationCycle"]}
{"id": "C55", "title": "End-to-end AXI-S delivery over the NoC", "statement": "Any number of AXI-S senders with their slave adapters send to one receiver with its master adapter. The NoC delivers to the receiver, on each virtual channel and from each sender, a prefix of what the sender put in for this receiver and channel, and does not interleave packets on a channel. Then the transactions that the receiving module sees from one sender over one virtual channel are a prefix of those that sender accepted for it, in order, with equal data, user bits and last flag, each on the interface named in its tid. When the senders are idle and the NoC is empty, all of them are seen, each once. Over different virtual channels the order is not kept.", "quantifier": "all traffic, all schedules, all NoC delays and interleavings between senders", "why_tests_cant": "It composes three concurrent machines with arbitrary interleavings.", "anchors": ["rad-sim/sim/noc/axis_slave_adapter.cpp", "rad-sim/sim/noc/axis_master_adapter.cpp", "rad-sim/sim/noc/radsim_noc.cpp"]}
{"id": "C56", "title": "A packet longer than the ejection FIFO is never delivered", "statement": "The AXI-S master adapter starts to drain an ejection FIFO only once it holds a whole packet. So if the packets sent to a node have more flits than the ejection FIFO has entries, the adapter never delivers any of them, whatever the schedule.", "quantifier": "every configuration, every packet contents and interleaving, every schedule and every tready pattern", "why_tests_cant": "A test with one depth and one width shows one hang, not that every longer packet hangs under every schedule.", "anchors": ["rad-sim/sim/noc/axis_master_adapter.cpp:OutputEjection,OutputDepacketization"]}
{"id": "C57", "title": "A packet wider than the receiving interface is shown once per transfer", "statement": "A packet that has more flits than the receiving AXI-S interface needs for its own data width is shown to the module as many times as there are groups of that many flits, rounded up, each time with its full contents; a packet that fits is shown once. Packets are never mixed or reordered, and every complete packet is eventually shown that often. So the expectation that a packet is delivered once is false.", "quantifier": "every configuration, all packet lengths, all interleavings, schedules and tready patterns", "why_tests_cant": "A test must combine a wide sender with a narrow receiver, and the quantified claim covers every pair of widths.", "anchors": ["rad-sim/sim/noc/axis_master_adapter.cpp:OutputInterface"]}
{"id": "C58", "title": "A packet type travels on an existing virtual channel exactly when it is configured or its default is small enough", "statement": "For every configuration that config.py accepts, packet type t is sent on a virtual channel between 0 and vcs-1 exactly when t is below the configured number of packet types or the BookSim default start of t (0, 1, 2, 8, 10) is below vcs. So with fewer than five packet types some types can travel on channels that do not exist.", "quantifier": "all virtual channel counts and packet type counts that config.py accepts", "why_tests_cant": "a test configuration fixes one pair of counts; the failing pairs need fewer than five packet types", "anchors": ["rad-sim/config.py:generate_booksim_config_files", "rad-sim/sim/noc/booksim/booksim_config.cpp:BookSimConfig", "rad-sim/sim/noc/noc_utils.cpp:VCIDFromType"]}
{"id": "C59", "title": "Adapters run on the clock of the module whose port is placed first on the node", "statement": "The adapters built for a node run their port-side logic on the clock configured for the module of the port that the placement file puts first on the node. So the clock is right for a port when all ports of the node belong to modules with its clock, and it is wrong for some port otherwise.", "quantifier": "all placement files and clock settings", "why_tests_cant": "only designs with ports of two modules with different clocks on one node show it", "anchors": ["rad-sim/sim/design_context.cpp:BuildDesignContext"]}
{"id": "C60", "title": "Portal transactions under reset: what is taken during reset is sent again", "statement": "Whatever the reset pulses, what leaves the portal while reset is inactive, followed by what is inside, is exactly what came in, in order. A transaction that the receiver takes at an edge with reset active is the oldest one inside, and is sent again later. So a reset in traffic can hand a transaction over twice but loses none.", "quantifier": "all sequences of edges with reset, inputs and ready signals", "why_tests_cant": "tests reset once before traffic starts", "anchors": ["rad-sim/sim/portal.cpp:Tick"]}
{"id": "C61", "title": "Traffic dumps add up all devices", "statement": "The traffic volume dumped for a network, source and destination is the sum over all devices of the volumes of the transactions of that device, and not the volume of one device.", "quantifier": "every sequence of telemetry calls by several devices", "why_tests_cant": "single-device runs cannot show it", "anchors": ["rad-sim/sim/radsim_telemetry.cpp:DumpTrafficFlows"]}
{"id": "C62", "title": "Tree arbitration is starvation free", "statement": "Every arbiter that can be constructed, trees of any nesting included, grants an input that keeps requesting with top priority after at most size-1 grants to other inputs.", "quantifier": "all arbiter kinds, sizes, request histories", "why_tests_cant": "a starving pattern needs long adversarial histories over every nesting", "anchors": ["rad-sim/sim/noc/booksim/arbiters/tree_arb.cpp", "rad-sim/sim/noc/booksim/arbiters/arbiter.cpp:NewArbiter"]}
{"id": "C63", "title": "Shared downstream buffers never overflow", "statement": "With each of the shared buffer policies (shared, limited, dynamic, shifting, feedback, simple feedback) the credit tracker never fails a check or an assert, occupancy is flits sent minus credits returned, all channels together never hold more flits than the buffer has slots, and no slot is lost: a channel (under a limit: an empty channel) whose private buffer has room may send. The dynamic limit needs a slot per channel. The shifting limit needs that number rounded up to a power of two: with five channels and five slots a legal sequence ends the simulation. The default settings always give a valid split into private and shared parts.", "quantifier": "every sequence of legal allocation, send and credit events at any times, all numbers of channels, sizes and splits", "why_tests_cant": "Reserved slots, shared slots and moving limits interact over the whole history.", "anchors": ["rad-sim/sim/noc/booksim/buffer_state.cpp:SharedBufferPolicy,LimitedSharedBufferPolicy,DynamicLimitedSharedBufferPolicy,ShiftingDynamicLimitedSharedBufferPolicy,FeedbackSharedBufferPolicy,SimpleFeedbackSharedBufferPolicy"]}
{"id": "C64", "title": "A packet is only offered virtual channels of its type", "statement": "With enough virtual channels per type no assertion of a routing function fails on the way of a packet, and every virtual channel it is offered belongs to its type, also at injection. (min_adapt offers channels of other types whenever the type does not start at VC 0; with the default of one VC per type xy_yx, romm, valiant and the torus functions fail an assertion.)", "quantifier": "all network sizes, VC ranges, packets and random numbers", "why_tests_cant": "Needs several packet types and every place on the way of a packet.", "anchors": ["rad-sim/sim/noc/booksim/routefunc.cpp:dim_order_mesh,dim_order_ni_mesh,dim_order_pni_mesh,xy_yx_mesh,min_adapt_mesh,romm_mesh,valiant_mesh,dim_order_torus,dim_order_bal_torus", "rad-sim/sim/noc/booksim/outputset.cpp:AddRange"]}
{"id": "C65", "title": "Several networks in one design", "statement": "If all networks of a design have the same radix and dimension, each of them routes correctly although they share the globals gK, gN and gNodes. (With different radices all but the last built network route with the wrong radix: a packet can circulate for ever.)", "quantifier": "all lists of networks", "why_tests_cant": "Designs under test use a single network.", "anchors": ["rad-sim/sim/noc/booksim/routefunc.cpp:dim_order_mesh", "rad-sim/sim/noc/booksim/networks/kncube.cpp:_ComputeSize", "rad-sim/sim/noc/booksim/networks/network.cpp:128", "rad-sim/sim/noc/radsim_noc.cpp:11-38"]}
{"id": "C66", "title": "Minimal adaptive routing has no choice of direction", "statement": "All outputs offered by min_adapt on the mesh lie on the port of dimension-order routing, although several directions may lead closer to the destination: an OutputSet holds one element per priority and drops the second productive dimension.", "quantifier": "all radices, dimensions, VC ranges, routers, destinations and input channels", "why_tests_cant": "Packets arrive all the same; only the set of offered outputs shows it.", "anchors": ["rad-sim/sim/noc/booksim/routefunc.cpp:min_adapt_mesh", "rad-sim/sim/noc/booksim/outputset.hpp:58-62", "rad-sim/sim/noc/booksim/outputset.cpp:AddRange"]}
{"id": "C67", "title": "Write responses of the memory controller carry stale response addresses", "statement": "There are never more write responses than bursts whose last word has been stored. The responses carry the user fields of the bursts in order if Assign runs at every clock edge. Otherwise they do not: buser is written only when an occupancy signal changes, and in a steady stream of writes none does, so that a response carries the response address of an earlier one.", "quantifier": "all request sequences, all DRAMs that return what they accept, reads in any order and writes in order, both thread orders at every edge", "why_tests_cant": "The number of responses is right and a single write works; only the address of a response in a stream is wrong.", "anchors": ["rad-sim/sim/dram/mem_controller.cpp:Assign,Tick,MemWriteCallback", "rad-sim/sim/dram/mem_controller.cpp:133-143"]}
{"id": "C68", "title": "Ready and valid of the memory controller", "statement": "A write address offered while awready is high is taken at that edge. It is also taken while awready is low, so an address held until awready is taken more than once. A read address offered while arready is high can be lost: the count of outstanding reads falls one cycle before the count of waiting responses rises.", "quantifier": "all request sequences, queue sizes of at least 16 and DRAM behaviours", "why_tests_cant": "Needs a burst of completions at the moment a request arrives, or a full queue.", "anchors": ["rad-sim/sim/dram/mem_controller.cpp:Tick,MemTick,Assign"]}
{"id": "C69", "title": "AXI-MM injection queue exceeds its depth by at most one flit", "statement": "If the longest packet fits into the injection queue, the queue never holds more than one flit above its configured depth. It does hold one more: the space reserved for a packet is rounded down.", "quantifier": "every schedule of node, adapter and NoC edges, every sequence of offers", "why_tests_cant": "The excess needs a queue filled to exactly the threshold when a packet of the largest size arrives.", "anchors": ["rad-sim/sim/noc/aximm_slave_adapter.cpp:InputPacketization", "rad-sim/sim/noc/aximm_master_adapter.cpp:InputPacketization"]}
{"id": "C70", "title": "AXI-MM responses go to the node named in the user field", "statement": "Every flit of a read-data or write response goes to the node in the top node-address bits of the 64-bit address in the low bits of the response user field, whatever the bits above hold.", "quantifier": "all R and B transactions, all widths with a user field of at least 64 bits", "why_tests_cant": "Tests use few response addresses.", "anchors": ["rad-sim/sim/noc/aximm_master_adapter.cpp:InputInterface"]}
{"id": "C71", "title": "AXI-MM output shows each packet whole, once and in order", "statement": "When the flits of each channel type arrive packet by packet, in any interleaving of the types, the transactions that an AXI-MM adapter shows to its module are those of the packets, each once, those of one type in arrival order, with the fields packed in the packet. Neither adapter aborts. All packets that have arrived whole are shown after enough clock edges with ready high, if they fit the ejection FIFO. When a type has several virtual channels, packets interleaved on them are mixed into one transaction.", "quantifier": "all interleavings of flit arrivals, all stalls, all orders and interleavings of the three clocks, all configurations", "why_tests_cant": "The interleavings of types, stalls and clocks are exponential in the number of packets.", "anchors": ["rad-sim/sim/noc/aximm_slave_adapter.cpp:OutputEjection,OutputDepacketization,OutputInterface", "rad-sim/sim/noc/aximm_master_adapter.cpp:OutputEjection,OutputDepacketization,OutputInterface"]}
{"id": "C72", "title": "AXI-MM output holds valid for one clock edge only", "statement": "A transaction is shown by an AXI-MM adapter at exactly one edge of the node clock and is taken only if its ready signal, which was high one edge earlier, is high there too. If no ready signal ever falls, every transaction shown is taken. If one falls for a single edge, a transaction is lost for good.", "quantifier": "every input, every schedule and every pattern of ready signals", "why_tests_cant": "Test modules keep ready high.", "anchors": ["rad-sim/sim/noc/aximm_slave_adapter.cpp:OutputInterface", "rad-sim/sim/noc/aximm_master_adapter.cpp:OutputInterface"]}
{"id": "C73", "title": "An AXI-MM packet longer than the ejection FIFO is never shown", "statement": "If the packets sent to a node have more flits than an ejection FIFO of the AXI-MM adapter has entries, none of them is ever shown to the module.", "quantifier": "every configuration, every input of such packets, every schedule and every pattern of ready signals", "why_tests_cant": "One hang seen in a test says nothing of other widths, depths and schedules.", "anchors": ["rad-sim/sim/noc/aximm_slave_adapter.cpp:OutputEjection,OutputDepacketization", "rad-sim/sim/noc/aximm_master_adapter.cpp:OutputEjection,OutputDepacketization"]}
{"id": "C74", "title": "AXI-MM output channels block each other", "statement": "While the packet next in turn waits for the ready signal of its channel, an AXI-MM adapter shows nothing on any channel. So read data that have arrived can wait for ever for a write response that is not taken.", "quantifier": "every state with a waiting packet, every schedule", "why_tests_cant": "The order in which channels are served depends on the arrival of flits.", "anchors": ["rad-sim/sim/noc/aximm_slave_adapter.cpp:OutputInterface", "rad-sim/sim/noc/aximm_master_adapter.cpp:OutputInterface"]}
{"id": "C75", "title": "End-to-end AXI-MM delivery over the NoC", "statement": "Any number of AXI-MM adapters send requests to one master adapter, or responses to one slave adapter. The NoC delivers, of each type and from each sender, a prefix of what the sender put in for this receiver, and does not interleave packets of one type. Then the transactions of one type and sender that the receiving module is shown are a prefix of those the sender accepted for it, in order. Write data, read data and write responses arrive unchanged, requests with their address, id and user field, and with burst settings made of the user field. When everything accepted was put in and the NoC is empty, all transactions are shown, each once.", "quantifier": "all traffic, all schedules of the clocks that keep the frequency ratio, all NoC delays, all interleavings of senders and types", "why_tests_cant": "It composes several concurrent machines with arbitrary interleavings.", "anchors": ["rad-sim/sim/noc/aximm_slave_adapter.cpp", "rad-sim/sim/noc/aximm_master_adapter.cpp", "rad-sim/sim/noc/radsim_noc.cpp"]}
{"id": "C76", "title": "The composed network runs, and every channel is a FIFO", "statement": "In any network of input-queued routers whose channels are wired consistently (each port has its channel and each channel its two ends), no router fails an assertion or overflows a buffer, as long as allocators return matchings, routing functions give lawful routes, and nodes inject packets within the credits returned. Every router's surroundings meet the assumptions of the single-router theorems: flits, credits and routes computed in advance that reach it are as a router alone needs them. What a router or node reads from a channel is what was sent into it, in order, and what has not been read is still in the channel.", "quantifier": "every wiring, every number of routers and ports, every buffer policy, every execution of any length", "why_tests_cant": "Wrong credits or a full buffer in some router show only under particular loads of the whole network.", "anchors": ["rad-sim/sim/noc/booksim/networks/network.cpp:_Alloc,ReadInputs,Evaluate,WriteOutputs,WriteFlit,ReadFlit", "rad-sim/sim/noc/booksim/routers/iq_router.cpp", "rad-sim/sim/noc/radsim_noc.cpp:Tick"]}
{"id": "C77", "title": "The network loses, doubles and alters no flit", "statement": "At any time the flits injected so far at all nodes are those ejected so far at all nodes together with those inside channels, buffers and crossbars, each once, with id, packet id and head and tail marks unchanged.", "quantifier": "every wiring, every execution", "why_tests_cant": "A test can only follow the packets it sends.", "anchors": ["rad-sim/sim/noc/booksim/networks/network.cpp", "rad-sim/sim/noc/booksim/routers/iq_router.cpp", "rad-sim/sim/noc/booksim/channel.hpp"]}
{"id": "C78", "title": "Packets leave the network whole and where their heads may go", "statement": "On each virtual channel of each node the ejected flits form whole packets one after the other, never interleaved, and flits of packets that were injected together (same destination, same flow) leave together. Every ejected flit belongs to a packet whose head was allowed at that node.", "quantifier": "every wiring, routing policy and execution", "why_tests_cant": "Interleaving depends on how packets from different inputs compete over time.", "anchors": ["rad-sim/sim/noc/booksim/routers/iq_router.cpp", "rad-sim/sim/noc/booksim/networks/network.cpp"]}
{"id": "C79", "title": "A flow with one way through the network stays in order", "statement": "If the heads of a flow can only be on one sequence of (channel, virtual channel) pairs that passes no router twice, then the flits of the flow leave the network at its end only, in the order in which they were injected; those missing are still inside.", "quantifier": "every wiring, flow and execution", "why_tests_cant": "Reordering needs a particular contention pattern.", "anchors": ["rad-sim/sim/noc/booksim/routers/iq_router.cpp", "rad-sim/sim/noc/booksim/networks/network.cpp"]}
{"id": "C80", "title": "Meshes and tori deliver every packet only to its destination", "statement": "KNCube wires a mesh or torus of any size consistently. With dimension-order routing (also the per-destination, partial and xy/yx variants) the network runs without failure, no call of the routing function on the way of a head fails its assertions, every flit is accounted for, packets come out whole, and a flit leaves the network only at its destination, with or without routes computed in advance.", "quantifier": "all k >= 1, all dimensions, all traffic within credits, all executions", "why_tests_cant": "A test covers one size and one traffic pattern.", "anchors": ["rad-sim/sim/noc/booksim/networks/kncube.cpp:_BuildNet", "rad-sim/sim/noc/booksim/routefunc.cpp:dim_order_mesh,dim_order_ni_mesh,dim_order_pni_mesh,xy_yx_mesh", "rad-sim/sim/noc/booksim/routers/iq_router.cpp"]}
{"id": "C81", "title": "Dimension-order routing keeps a flow in order only with one virtual channel per type", "statement": "On a mesh with dimension-order routing, flits with the same source, destination and type leave in the order in which they entered if the type has one virtual channel. With two virtual channels per type packets of one source, destination and type can overtake each other, so AXI-S beats can be reordered.", "quantifier": "all sizes, traffic and executions; a witness for two virtual channels", "why_tests_cant": "Overtaking needs one virtual channel to be blocked while the other is free.", "anchors": ["rad-sim/sim/noc/booksim/networks/kncube.cpp:_BuildNet", "rad-sim/sim/noc/booksim/routefunc.cpp:dim_order_mesh", "rad-sim/sim/noc/booksim/routers/iq_router.cpp"]}
{"id": "C82", "title": "The credit handling of the nodes never overruns the network, and no flit is overwritten or read twice", "statement": "Each node holds a BufferState for its router, sends a flit only if that has room, reads at most one credit per cycle from the injection channel, and hands back one slot per cycle through the map of ejected flits. If the injection thread and the reads of each node take turns with the cycles of the network, offered flits form packets, and slots are freed only for flits read, then: no assertion fails; the network only sees traffic within credits; what a node has sent is what the network took from it; what a node has read is what the network delivered to it, each flit once; and per virtual channel a node never holds more flits (read or waiting, slot not freed) than the private buffer of that channel has slots. If the order of threads at an edge changes, flits are lost or read twice.", "quantifier": "every wiring, every network size, every private buffer setting, every execution of events at the nodes; witnesses for changing order", "why_tests_cant": "The channels keep a flit for one cycle only, so a loss needs a particular order of threads at one edge; tests run one scheduler.", "anchors": ["rad-sim/sim/noc/radsim_noc.cpp:Tick,noc_tick", "rad-sim/sim/noc/axis_slave_adapter.cpp:InputInjection", "rad-sim/sim/noc/axis_master_adapter.cpp:OutputEjection", "rad-sim/sim/noc/booksim/networks/network.cpp:WriteFlit,ReadFlit,WriteCredit,ReadCredit", "rad-sim/sim/noc/booksim/channel.hpp", "rad-sim/sim/noc/booksim/buffer_state.cpp"]}
{"id": "C83", "title": "A mesh with dimension-order routing, seen from its nodes, is a FIFO per sender, receiver and type", "statement": "On a mesh of any size with dimension-order routing and one virtual channel per type, driven by nodes as in C82: a node reads only flits addressed to it, on the channel of their type, whole packets one after the other; of every sender and type it reads exactly what that sender sent to it, in order, without loss, duplication or change; and when nothing is left in the network and the channels to the nodes, it has read all of it.", "quantifier": "all mesh sizes and dimensions, all traffic, all executions", "why_tests_cant": "A test sees one size, one traffic pattern and one schedule.", "anchors": ["rad-sim/sim/noc/radsim_noc.cpp", "rad-sim/sim/noc/booksim/networks/kncube.cpp:_BuildNet", "rad-sim/sim/noc/booksim/routefunc.cpp:dim_order_mesh", "rad-sim/sim/noc/booksim/routers/iq_router.cpp", "rad-sim/sim/noc/axis_slave_adapter.cpp:InputInjection", "rad-sim/sim/noc/axis_master_adapter.cpp:OutputEjection"]}
{"id": "C84", "title": "AXI-S transactions cross the whole network unchanged, once and in order", "statement": "Put an AXI-S slave adapter and an AXI-S master adapter on every node of a mesh of any size with dimension-order routing, give every flit type one virtual channel, and make the ejection FIFOs at least as deep as the private buffer of a virtual channel. Then no assertion of adapters, terminals, routers or buffers fails in any execution, and for every node there is a history of transactions such that per sender and channel it is the first part of what that sender accepted for this node, in order, and what the module of the node sees on each of its interfaces is the first part of the transactions in the history for that interface, with the same data, user bits and last flag. When the adapters and the network hold nothing any more, both are complete: every accepted transaction has been seen exactly once. With ejection FIFOs one slot shallower a transaction can be lost without any error.", "quantifier": "all mesh sizes and dimensions, adapter configurations, buffer sizes, traffic, clock ratios, thread orders and allocator results; a witness for shallower FIFOs", "why_tests_cant": "Adapters, credits, routers and wiring have to agree on every channel and every cycle; a mistake in one shows only for particular traffic, buffer sizes and thread orders.", "anchors": ["rad-sim/sim/noc/axis_slave_adapter.cpp", "rad-sim/sim/noc/axis_master_adapter.cpp", "rad-sim/sim/noc/radsim_noc.cpp", "rad-sim/sim/noc/booksim/networks/network.cpp", "rad-sim/sim/noc/booksim/networks/kncube.cpp:_BuildNet", "rad-sim/sim/noc/booksim/routefunc.cpp:dim_order_mesh", "rad-sim/sim/noc/booksim/routers/iq_router.cpp", "rad-sim/sim/noc/booksim/buffer_state.cpp", "rad-sim/sim/noc/booksim/channel.hpp"]}
{"id": "C85", "title": "AXI-MM transactions cross the whole network once and in order", "statement": "Put an AXI-MM slave or master adapter on every node of a mesh of any size with dimension-order routing, give every transaction type one virtual channel, and make the ejection FIFOs at least as deep as the private buffer of a virtual channel. Then no assertion of adapters, terminals, routers or buffers fails in any execution, and for every node there is a history of transactions such that per sender and type it is the first part of what that sender accepted of this type for this node, in order, and what the module of the node sees on its channels is the first part of the history: write data, read data and responses unchanged, requests with the changes of C75. When the adapters and the network hold nothing any more, both are complete: every accepted transaction has been seen exactly once.", "quantifier": "all mesh sizes and dimensions, placements of slave and master adapters, widths, buffer sizes, traffic, clock ratios from 2 to 256, thread orders and allocator results", "why_tests_cant": "Requests and responses of many masters and slaves share routers and adapters; a mistake shows only for particular traffic, widths and thread orders.", "anchors": ["rad-sim/sim/noc/aximm_slave_adapter.cpp", "rad-sim/sim/noc/aximm_master_adapter.cpp", "rad-sim/sim/noc/radsim_noc.cpp", "rad-sim/sim/noc/booksim/networks/network.cpp", "rad-sim/sim/noc/booksim/networks/kncube.cpp:_BuildNet", "rad-sim/sim/noc/booksim/routefunc.cpp:dim_order_mesh", "rad-sim/sim/noc/booksim/routers/iq_router.cpp", "rad-sim/sim/noc/booksim/buffer_state.cpp", "rad-sim/sim/noc/booksim/channel.hpp"]}
{"id": "C86", "title": "A packet longer than a virtual channel buffer never arrives", "statement": "A master-side adapter takes a packet out of its ejection FIFO once all of it has arrived, and only then gives the router its credits back. So in a mesh with dimension-order routing and private buffers, if the packets of an AXI-MM transaction type have more flits than a virtual channel buffer of a router (vc_buffer_size), no module ever sees a transaction of this type, in no execution; no assertion fails and nothing is reported. The same holds for AXI-S if it is true of the packets of all interfaces.", "quantifier": "all mesh sizes, buffer sizes, widths, traffic, thread orders, allocator results and execution lengths", "why_tests_cant": "That a transaction never arrives can not be seen by running for some time; the configurations of the examples have buffers that are long enough.", "anchors": ["rad-sim/sim/noc/axis_master_adapter.cpp:OutputDepacketization", "rad-sim/sim/noc/aximm_slave_adapter.cpp:OutputDepacketization", "rad-sim/sim/noc/aximm_master_adapter.cpp:OutputDepacketization", "rad-sim/sim/noc/booksim/buffer_state.cpp", "rad-sim/sim/noc/booksim/routers/iq_router.cpp"]}
{"id": "C87", "title": "The matrix-vector engine computes what its instructions say", "statement": "In every execution of a matrix-vector engine of the MLP design that receives vectors only: no FIFO of the engine overflows or underflows, no memory is accessed outside, and the transactions it has sent are, in order and bit for bit, a prefix of what executing the instructions one after the other on the vectors received releases - whatever the cycles in which vectors come and the receiver is ready, and in spite of the pipeline, the latency of the register files, accumulation in place and the FIFOs. Condition: the instructions themselves do not access memory outside or add to a slot never written, and no result for layer 0, engine 0 is a vector of zeros. The last condition is needed: C87_zeros_refuted shows that such a result is sent twice and ends the simulation with an error, since mvm::Assign is not sensitive to ofifo_empty_signal.", "quantifier": "all native dimensions, latencies, FIFO sizes above them, memory depths, instruction memories, weights, input sequences, timings and execution lengths", "why_tests_cant": "The example has one test with one timing; hazards between the pipeline stages, back-pressure and the missing signal in the sensitivity list show for rare timings and data only.", "anchors": ["rad-sim/example-designs/mlp/modules/mvm.cpp:Tick", "rad-sim/example-designs/mlp/modules/mvm.cpp:Assign", "rad-sim/example-designs/mlp/modules/fifo.cpp:Tick", "rad-sim/example-designs/mlp/modules/register_file.cpp:Tick", "rad-sim/example-designs/mlp/modules/register_file.cpp:Assign", "rad-sim/example-designs/mlp/modules/instructions.cpp"]}
{"id": "C88", "title": "The matrix-vector engine sends every result it owes", "statement": "When no more vectors come and the receiver is ready, the engine has sent all results of the first k instructions that the vectors received allow to execute after at most 2 k + 2 FIFO_SIZE + RF_RD_LATENCY + COMPUTE_LATENCY cycles. It does not stop before, whatever happened earlier in the execution. Same conditions as C87.", "quantifier": "all parameters, instruction memories, weights, executions before, numbers k", "why_tests_cant": "That nothing ever gets stuck is a statement about all states that can be reached; a test sees a few of them.", "anchors": ["rad-sim/example-designs/mlp/modules/mvm.cpp:Tick", "rad-sim/example-designs/mlp/modules/mvm.cpp:Assign", "rad-sim/example-designs/mlp/modules/fifo.cpp:Tick", "rad-sim/example-designs/mlp/modules/register_file.cpp:Tick", "rad-sim/example-designs/mlp/modules/register_file.cpp:Assign", "rad-sim/example-designs/mlp/modules/instructions.cpp"]}
{"id": "C89", "title": "Vectors survive the data bus", "statement": "The elements of a vector written into the lanes of tdata and read out of them again are the same numbers, if they fit in 32 bits with sign, and are taken modulo 2^32 otherwise. The elements of every result released by instructions fit.", "quantifier": "all vector lengths and elements", "why_tests_cant": "There are 2^512 values of the bus.", "anchors": ["rad-sim/example-designs/mlp/modules/mvm.cpp:Tick", "rad-sim/example-designs/mlp/modules/mvm.cpp:Assign", "rad-sim/example-designs/mlp/modules/mvm.cpp:dot"]}
{"id": "C90", "title": "The test case generator of the MLP design compiles correctly", "statement": "For every number of layers up to 14, all dimensions, all numbers of engines per layer up to 32 and all weights: the instruction and weight files that gen_testcase.py writes for an engine, read into its memories, make it add to any partial results its share of the matrix-vector product - the columns in the blocks b with b mod k = m - and hand block after block to the engine that needs it; the program never accesses memory outside, never adds to a slot not written, and then waits for the next vector. The outputs in golden_outputs.mif, computed by the script with numbers of 64 bits on padded matrices, are modulo 2^32 the products of the matrices without padding.", "quantifier": "all layer counts <= 14, dimensions, engine counts <= 32, weights, vectors, native dimensions; memories deep enough", "why_tests_cant": "Each test case is one set of dimensions; the distribution of blocks over engines, accumulation, reduction and padding interact differently for each.", "anchors": ["rad-sim/example-designs/mlp/compiler/gen_testcase.py", "rad-sim/example-designs/mlp/modules/mvm.cpp:ParseInstructions", "rad-sim/example-designs/mlp/modules/register_file.hpp:parse_register_file_contents_from_file"]}
{"id": "C91", "title": "The MLP design computes the multi-layer product", "statement": "In every execution of all engines of a generated MLP design - each engine edge by edge with its own timing, transactions between two engines arriving in order after any time - no engine fails, no engine but the last one of the last layer sends to the collector, and what that one has sent is, in order and bit for bit, a prefix of the blocks of M_k ... M_1 x for the test inputs x, modulo 2^32. Condition: no block of expected outputs is all zeros. It is needed: C91_padding_refuted shows that gen_testcase.py 1 32 16 2 pads the outputs with blocks of zeros, so that the last engine sends one block too many and the simulation ends with an error.", "quantifier": "all generated designs, weights, test inputs, numbers of tests, timings of all engines and of the network, execution lengths", "why_tests_cant": "The repository has one test case of fixed size and timing; correctness of dataflow between engines for other shapes and timings is not observed.", "anchors": ["rad-sim/example-designs/mlp/compiler/gen_testcase.py", "rad-sim/example-designs/mlp/modules/mvm.cpp:Tick", "rad-sim/example-designs/mlp/modules/mvm.cpp:Assign", "rad-sim/example-designs/mlp/mlp_top.cpp"]}
{"id": "C92", "title": "The MLP design delivers every expected output", "statement": "If moreover everything sent has been received and every engine has then been left alone with a ready receiver for a number of cycles given by the sizes, the last engine has sent exactly the expected outputs, none missing.", "quantifier": "as C91", "why_tests_cant": "Absence of stalls is a property of all reachable states of all engines.", "anchors": ["rad-sim/example-designs/mlp/compiler/gen_testcase.py", "rad-sim/example-designs/mlp/modules/mvm.cpp:Tick", "rad-sim/example-designs/mlp/modules/mvm.cpp:Assign"]}
{"id": "C93", "title": "Driver and dispatcher of the MLP design hand over every input once and in order", "statement": "For every list of input vectors and every sequence of cycles in which the NoC is ready or not: the transactions that a dispatcher hands to the NoC are the vectors of its file, each once, in order and bit for bit; its FIFO never overflows or is read while empty; and after three times as many ready cycles as there are vectors all are through.", "quantifier": "all input lists, ready sequences, FIFO sizes > 1, vector lengths", "why_tests_cant": "The almost-full flag is one cycle old when the driver looks at it; whether this loses a vector depends on when the NoC stalls.", "anchors": ["rad-sim/example-designs/mlp/mlp_driver.cpp:source", "rad-sim/example-designs/mlp/modules/dispatcher.cpp"]}
{"id": "C94", "title": "Collector and driver of the MLP design compare every output once", "statement": "For every sequence of transactions that the NoC offers: the collector takes each in the cycle in which it is offered and never overflows; the driver's sink compares each with the expected output of the same position, one cycle later, and its mistake flag is false exactly if all compared were equal.", "quantifier": "all transactions, timings, expected outputs, FIFO sizes > 2", "why_tests_cant": "A test bench that passes says nothing about outputs that its sink skips or compares with the wrong line.", "anchors": ["rad-sim/example-designs/mlp/mlp_driver.cpp:sink", "rad-sim/example-designs/mlp/modules/collector.cpp"]}
{"id": "C95", "title": "The self-test of a generated MLP design passes", "statement": "For every generated MLP design whose inputs and expected outputs fit in 32 bits and whose expected blocks are not all zeros: files, driver, dispatchers, engines, collector and comparison taken together never fail and never report a mistake, whatever the timing; and if everything sent arrives and enough cycles pass, the driver prints SUCCESS. C95_range_refuted: without the condition on the range it does not hold. The script computes with 64 bits and the driver reads numbers that stop at the limits of 32, so a design of 12 layers of 3 with weights -2 prints FAILURE although the engines compute the product modulo 2^32.", "quantifier": "as C91, with all ready sequences of the dispatchers and all arrival times at the collector", "why_tests_cant": "The one test case of the repository is far from the limits of 32 bits.", "anchors": ["rad-sim/example-designs/mlp/mlp_driver.cpp:ParseIO", "rad-sim/example-designs/mlp/mlp_driver.cpp:source", "rad-sim/example-designs/mlp/mlp_driver.cpp:sink", "rad-sim/example-designs/mlp/compiler/gen_testcase.py"]}
{"id": "C96", "title": "A network whose channels have ranks drains: no deadlock, no lost credit, no forgotten packet", "statement": "Take any network of input-queued routers wired as in C76, with private buffers, whose (channel, virtual channel) pairs can be ranked so that a head only goes to a lower rank. Once the nodes stop injecting, have injected whole packets and give credits when they are clogged, every flit comes out: after a number of cycles bounded by a constant of the network times the number of flits the network is empty. A node is clogged if it holds as many flits of a virtual channel as its buffer has slots or, with wait_for_tail_credit, if it holds flits of a virtual channel on which all packets have come whole; then some node has to give a credit within D cycles, for any D, which the bound is multiplied by. This covers the whole pipeline of every router (input queues, routing, VC and switch allocation, crossbar, output buffers, credits), for all allocators that grant something when asked for something. All the allocators of BookSim do so in every round (C96_allocators), and every run can be continued in this way (C96_continues).", "quantifier": "all wirings, routing policies with ranks, buffer sizes, pipeline delays, traffic, allocator states and executions", "why_tests_cant": "A deadlock, or a request forgotten in a pipeline stage, needs a particular pattern of contention; a test that drains says nothing about the next one.", "anchors": ["rad-sim/sim/noc/booksim/routers/iq_router.cpp", "rad-sim/sim/noc/booksim/buffer_state.cpp", "rad-sim/sim/noc/booksim/networks/network.cpp", "rad-sim/sim/noc/booksim/channel.hpp", "rad-sim/sim/noc/booksim/allocators/allocator.cpp"]}
{"id": "C97", "title": "A mesh with dimension-order routing delivers every packet to its destination", "statement": "In a mesh or torus of any size and dimension with dimension-order routing (also with virtual channels per destination) and private buffers: after the nodes stop injecting, and if clogged nodes give credits as in C96, within a bounded number of cycles the network is empty and every node has got exactly the flits addressed to it.", "quantifier": "all k >= 1, dimensions, numbers of virtual channels, buffer sizes, delays, traffic, allocators and executions", "why_tests_cant": "Tests run a few sizes and traffic patterns; delivery is a property of all of them.", "anchors": ["rad-sim/sim/noc/booksim/networks/kncube.cpp", "rad-sim/sim/noc/booksim/routefunc.cpp:dim_order_mesh,dim_order_ni_mesh,dim_order_pni_mesh", "rad-sim/sim/noc/booksim/routers/iq_router.cpp"]}
{"id": "C98", "title": "Every transaction that is handed over is delivered: the whole AXI-S system comes to rest", "statement": "Put an AXI-S slave adapter and an AXI-S master adapter on every node of a mesh of any size with dimension-order routing, with private buffers, packets that fit into the buffer of a channel and FIFOs that hold something. There is a bound, which depends on the configuration only, such that after any execution in which the slave adapters accepted n transactions, bound * (1 + n) rounds in which the modules offer nothing and take what they get bring adapters, terminals, network and credits to rest, and then the module at each interface of each node has seen exactly the transactions sent to it, in order per sender and channel. A round is any sequence of instants in which every thread and the network run. The unpacking thread of a node must not run twice between two cycles of the network; without this condition there is an execution after which a transaction never arrives.", "quantifier": "all mesh sizes and dimensions, adapter configurations, buffer sizes, traffic, thread orders, allocators that grant something, and executions; a witness for adapters faster than the network", "why_tests_cant": "Absence of deadlock and of lost credits across adapters, terminals and routers is a property of infinitely many executions; a test shows that one traffic pattern gets through.", "anchors": ["rad-sim/sim/noc/axis_slave_adapter.cpp", "rad-sim/sim/noc/axis_master_adapter.cpp", "rad-sim/sim/noc/radsim_noc.cpp:301-321", "rad-sim/sim/noc/booksim/routers/iq_router.cpp", "rad-sim/sim/noc/booksim/networks/kncube.cpp"]}
{"id": "C99", "title": "A slot that a node frees twice between two NoC cycles is lost for ever", "statement": "_ejected_flits maps a node to one virtual channel, and inserting for a node that has an entry does nothing. So if a node frees several slots between two cycles of the network, only the first is reported. In every execution at the terminals of any wired network with private buffers, what a node holds of a channel plus what it lost of it is at most the slots of a buffer; when it has lost as many as there are, the node never gets another flit on that channel, whatever happens afterwards, in the network alone and in the system of AXI-S adapters.", "quantifier": "all wirings, routing functions, buffer sizes, traffic and executions", "why_tests_cant": "The loss is silent and needs adapters on a faster clock and a backlog in the ejection FIFO; the simulation then just stops making progress.", "anchors": ["rad-sim/sim/noc/axis_master_adapter.cpp:164-186", "rad-sim/sim/noc/radsim_noc.cpp:305-320"]}
{"id": "C100", "title": "A network file gives the network that its lines describe", "statement": "If every line of the file starts with a router and lists routers, with or without a latency, and nodes, reading gives a node list, a link list and latencies that are exactly those the lines describe: a router is known if it is mentioned, a node belongs to the router that names it, two routers are linked both ways if either line names the other, and the latency of a direction is the last one given for it, or 1. Reading fails only if two routers name one node or the nodes are not numbered from 0 without gaps. If the routers are numbered so too and latencies are positive, the network can be built. The documented latency of a node, lines that start with a node, and files whose routers have gaps in their numbers do not work: witnesses are given.", "quantifier": "all files with lines of this form; witnesses for the others", "why_tests_cant": "Files are free text; the meaning of a repeated link, an omitted latency or a line order is only seen if exactly that file is tried.", "anchors": ["rad-sim/sim/noc/booksim/networks/anynet.cpp:327-503", "rad-sim/sim/noc/anynet_file"]}
{"id": "C101", "title": "The routing tables of such a network lead every packet to its node on a way of least latency", "statement": "In a network that is connected, with positive latencies whose sums stay below the largest int, the table of every router has an entry for every node, and following the tables from any router leads to the router of the node and out of its port, and the latencies of the links that are taken add up to the least sum of any way between the two routers. The way is unique. If a router cannot be reached from another one, the loop that fills the table of that one never ends.", "quantifier": "all networks described by files", "why_tests_cant": "Shortest paths over all pairs and all graphs; the shipped file has one latency only.", "anchors": ["rad-sim/sim/noc/booksim/networks/anynet.cpp:208-326"]}
{"id": "C102", "title": "Such a network loses nothing and delivers only at the destination, in order", "statement": "Each link of the file becomes one channel per direction with the latency of that direction. The network built from such a file with its tables, with any number of virtual channels and any buffer policy, takes every cycle that terminals which respect credits give it without a failed assertion. At every time the flits that went in are those that came out plus those inside. Each node gets whole packets on each channel that are addressed to it, and the packets of a flow that uses one virtual channel arrive in the order in which they were sent.", "quantifier": "all networks described by files, buffer policies, router delays, allocator results, traffic and executions", "why_tests_cant": "Wiring, port numbers and tables depend on the file; a test uses one file and one traffic pattern.", "anchors": ["rad-sim/sim/noc/booksim/networks/anynet.cpp:107-206", "rad-sim/sim/noc/booksim/networks/anynet.cpp:507-533", "rad-sim/sim/noc/booksim/routers/iq_router.cpp"]}
{"id": "C103", "title": "Trees and the network of the shipped file deliver everything", "statement": "If the channels of such a network can be ranked so that the tables lead packets to lower ranks only, then with private buffers everything that was sent is delivered within a bounded number of cycles after the last packet. In every tree, with any latencies, there are such ranks, and also in the network of the anynet file that comes with the simulator, which is not a tree. In a ring of five routers there are none, and packets can block each other.", "quantifier": "all networks described by files that can be ranked, all trees, the shipped file; traffic and executions without bound; a witness for the ring", "why_tests_cant": "Deadlock freedom of irregular networks depends on the tables that the program computes from the file, not on the file alone.", "anchors": ["rad-sim/sim/noc/booksim/networks/anynet.cpp", "rad-sim/sim/noc/anynet_file"]}
{"id": "C104", "title": "The client of the add and mult designs sends every number once, in order, and marks the last one", "statement": "However the driver, the FIFO and the AXI-S interface interleave and whenever the NoC is ready, the client never takes from an empty FIFO or adds to a full one, what it has handed over at any time is the first part of the numbers of the driver, in order, with the last flag on the last number only, and after 3n + 1 clock edges at which the NoC is ready all n numbers have been handed over.", "quantifier": "all lists of numbers (longer than the FIFO too) and all sequences of ready values", "why_tests_cant": "The FIFO fills and empties at rates that depend on the back-pressure of the NoC; a test sees one pattern.", "anchors": ["rad-sim/example-designs/add/modules/client.cpp", "rad-sim/example-designs/add/modules/fifo.cpp", "rad-sim/example-designs/add/add_driver.cpp"]}
{"id": "C105", "title": "The add and mult designs compute the right result and their self-test passes", "statement": "On a mesh with dimension-order routing, with the client and the adder (or multiplier) on any two nodes whose adapters fit, no part fails in any execution, the adder sees the first part of the numbers in order, and the driver never prints FAILURE if the result is less than 2^31. Once the NoC has taken all numbers, a bounded number of rounds later the driver prints SUCCESS. With numbers as the driver draws them the result is small enough for any sum of up to 214748364 numbers and any product of up to 9. With ten factors of 10 the int of the driver overflows and it prints FAILURE although the product is right.", "quantifier": "all meshes, buffer sizes, placements, numbers and executions; a witness for the overflow", "why_tests_cant": "The verdict depends on packets through the whole NoC under every interleaving of clocks; the overflow needs an unlucky draw.", "anchors": ["rad-sim/example-designs/add/modules/adder.cpp", "rad-sim/example-designs/add/add_driver.cpp", "rad-sim/example-designs/add/add_system.cpp", "rad-sim/example-designs/add/add_top.cpp", "rad-sim/example-designs/mult/modules/mult.cpp", "rad-sim/example-designs/mult/mult_driver.cpp"]}
{"id": "C106", "title": "A k-ary n-fly leads every packet to its destination and loses nothing", "statement": "For every k and n the channels of the fly connect each output of a stage with one input of the next stage and every node with one input of the first and one output of the last stage. Destination-tag routing leads a packet from any node to its destination through exactly n routers. The network of routers takes every cycle that terminals which respect credits give it without a failed assertion, the flits that went in are those that came out plus those inside, each node gets whole packets that are addressed to it, routers only read heads that are on their way, and packets of a flow that uses one virtual channel arrive in order.", "quantifier": "all k and n, buffer policies, router delays, allocator results, traffic and executions", "why_tests_cant": "The numbering of the channels is arithmetic in base k; a test builds one or two sizes.", "anchors": ["rad-sim/sim/noc/booksim/networks/fly.cpp:45-146", "rad-sim/sim/noc/booksim/routefunc.cpp:1862-1906"]}
{"id": "C107", "title": "A k-ary n-fly delivers everything", "statement": "With private buffers everything that was sent into a k-ary n-fly with destination-tag routing is delivered within a bounded number of cycles after the last packet, if nodes return credits.", "quantifier": "all k and n, private buffers of any size, traffic and executions", "why_tests_cant": "Deadlock freedom is a statement about all executions.", "anchors": ["rad-sim/sim/noc/booksim/networks/fly.cpp", "rad-sim/sim/noc/booksim/routefunc.cpp:1862-1906"]}
{"id": "C108", "title": "A fat tree leads every packet up to a common router and down to its destination, and loses nothing", "statement": "For every k and n the channels of the fat tree connect each port to one port of a router one level higher or lower, with latency 1. Whatever random numbers the routing functions draw, a packet goes through 2h+1 routers, where h is the least level at which source and destination have a router in common, and no way over the wires is shorter. Under both routing functions the network of routers takes every cycle that terminals which respect credits give it without a failed assertion, including the one that a packet from above never has to turn up again; the flits that went in are those that came out plus those inside, and each node gets whole packets that are addressed to it. Because the ways are random, two packets of one flow on one virtual channel may arrive in the other order.", "quantifier": "all k and n, random numbers, credit counts, buffer policies, router delays, allocator results, traffic and executions; a witness for the order", "why_tests_cant": "The numbering of the channels is arithmetic in base k and the ways are random; a test sees a few sizes and a few draws.", "anchors": ["rad-sim/sim/noc/booksim/networks/fattree.cpp:69-86", "rad-sim/sim/noc/booksim/networks/fattree.cpp:93-264", "rad-sim/sim/noc/booksim/routefunc.cpp:269-411"]}
{"id": "C109", "title": "A fat tree delivers everything", "statement": "With private buffers everything that was sent into a fat tree is delivered within a bounded number of cycles after the last packet, if nodes return credits, with either routing function and any random numbers.", "quantifier": "all k and n, random numbers, private buffers of any size, traffic and executions", "why_tests_cant": "Deadlock freedom is a statement about all executions.", "anchors": ["rad-sim/sim/noc/booksim/networks/fattree.cpp", "rad-sim/sim/noc/booksim/routefunc.cpp:269-411"]}
{"id": "C110", "title": "The requester of aximm_hello_world sends every command once and in order, because its adapter pauses", "statement": "If the adapter clock is at least twice as fast as the module clock and in phase with it, an AXI-MM adapter never accepts transactions at two edges of its module in a row. Therefore the requester, which shows an accepted request for one more edge, never pops from an empty FIFO, and what the adapter accepts are the commands of the trace, each once and in order, an AW followed by its W for a write and an AR for a read, and the NoC gets their packets. With the same periods but shifted clocks the requester sends a read twice and pops from an empty FIFO.", "quantifier": "all traces, FIFO depths, addresses, back-pressure from the NoC and schedules of the three clocks in phase; a witness for shifted clocks", "why_tests_cant": "Whether a shown request is taken a second time depends on the state of the packetisation at every edge; the shipped test has two commands.", "anchors": ["rad-sim/example-designs/aximm_hello_world/modules/requester.cpp:57-131", "rad-sim/example-designs/aximm_hello_world/aximm_hello_world_driver.cpp:51-75", "rad-sim/sim/noc/aximm_slave_adapter.cpp:92-138", "rad-sim/sim/noc/aximm_slave_adapter.cpp:279-369", "rad-sim/sim/design_context.cpp:9-38"]}
{"id": "C111", "title": "The responder of aximm_hello_world answers every request once and in order, as a memory does", "statement": "Under the same clocks the responder never pops from an empty FIFO, and the responses that its adapter accepts, followed by those that wait in its FIFO, are those of a memory that executes the requests it has taken in the order of their arrival: a read gives the data of the last write to its address before it, or 0, and the n-th data belong to the n-th write address. With shifted clocks it pops from an empty FIFO.", "quantifier": "all sequences of requests, also several at an edge, FIFO depths, back-pressure and schedules of the three clocks in phase; a witness for shifted clocks", "why_tests_cant": "Requests wait in five FIFOs and reads go before writes; a test sees a few interleavings.", "anchors": ["rad-sim/example-designs/aximm_hello_world/modules/responder.cpp:26-164", "rad-sim/sim/noc/aximm_master_adapter.cpp:367-391", "rad-sim/sim/noc/aximm_master_adapter.cpp:417-560"]}
{"id": "C112", "title": "The qtree connects each router with the four below it, and every packet takes the way over the first common router and arrives", "statement": "In the topology qtree with its 64 nodes, 21 routers and 40 channels, every input and output of a router has one channel: between a router and each of the four below it one in each direction, at the leaves four nodes each; all latencies are 1. With the routing function nca a packet goes up to the first router above source and destination and then down, over 1, 3 or 5 routers. In every run of the network that keeps to the rules no assertion fails, every flit is either inside or has left at its destination, and once the nodes stop injecting everything arrives within a number of cycles that depends on the number of flits only.", "quantifier": "all buffer policies, delays, traffic, schedules of allocators and nodes", "why_tests_cant": "Channel numbers of three levels have to fit together at every port, and arrival has to hold for every interleaving of packets.", "anchors": ["rad-sim/sim/noc/booksim/networks/qtree.cpp:57-185", "rad-sim/sim/noc/booksim/routefunc.cpp:76-125"]}
{"id": "C113", "title": "Tree4 connects four routers at the top with all eight of the next level, packets arrive by either routing function, and anca offers only one way up", "statement": "In the topology tree4 with its 64 nodes, 28 routers and 128 channels, every input and output of a router has one channel: each of the four routers at the top is connected with each of the eight of the second level, two of which each are connected with the same four leaves; all latencies are 1. With the routing functions nca and anca and any random numbers a packet goes up to the first level with a router above both nodes and then down, over 1, 3 or 5 routers; the network runs without failing assertions, no flit is lost or leaves elsewhere, and everything arrives. The several calls of AddRange in anca have the same priority, so that its set keeps the first one only: a packet that has to go up is offered port 4 alone, and the routers 1 to 3 at the top are never used.", "quantifier": "all buffer policies, delays, traffic, random numbers, schedules of allocators and nodes", "why_tests_cant": "The set of offered ports is not visible in results; arrival has to hold for every choice of ways.", "anchors": ["rad-sim/sim/noc/booksim/networks/tree4.cpp:63-224", "rad-sim/sim/noc/booksim/routefunc.cpp:127-265", "rad-sim/sim/noc/booksim/outputset.cpp:51-61", "rad-sim/sim/noc/booksim/outputset.hpp:59-62"]}
{"id": "C114", "title": "The permutation traffic patterns of BookSim are permutations, each the one of its name", "statement": "The patterns over bits start exactly if the number of nodes is a power of 2, transpose exactly if it is one of 4. Then bitcomp inverts every bit, transpose exchanges the two halves of the bits and is its own inverse, bitrev puts the bits in the other order, and shuffle moves every bit one place up and the highest to the lowest; each sends every node to one node such that every node is the destination of one. Among (xr*k)^n nodes tornado adds (xr*k+1)/2-1 and neighbor adds 1 to every digit in base xr*k, without carry, and both are permutations of the nodes. The table that randperm fills holds every node once whatever RandomInt returns, and its assertion never fails.", "quantifier": "all numbers of nodes, k, n and xr, all sources, all random numbers", "why_tests_cant": "A wrong mask or a digit too many gives destinations that look plausible and shows only in load statistics.", "anchors": ["rad-sim/sim/noc/booksim/traffic.cpp:207-365"]}
{"id": "C115", "title": "The random traffic patterns of BookSim give nodes that exist, except badperm_yarc with another number of dimensions than two and asymmetric with one node", "statement": "For every source and everything RandomInt may return, uniform, background, diagonal, taper64 and bad_dragon give a node, as does asymmetric among at least two nodes; background gives the first drawn node that is not excluded, diagonal the source or the next node, asymmetric a node of the upper half exactly if the second random choice says so, taper64 either any node or one at distance at most 1 in row and column, bad_dragon a node of the next group. hotspot never fails its assertion, and exactly as many random numbers lead to a hotspot as its rate says. badperm_yarc gives a node of the transposed row among (xr*k)^2 nodes; among (xr*k)^n with n = 1 it gives nodes that do not exist, and asymmetric divides by 0 if there is one node.", "quantifier": "all numbers of nodes, all sources, all random numbers, all lists of hotspots with positive rates", "why_tests_cant": "The bounds of the random numbers are met with small probability in a test.", "anchors": ["rad-sim/sim/noc/booksim/traffic.cpp:386-526"]}
{"id": "C116", "title": "The priority arbiter of the event router grants the first of the highest priorities from its pointer on, and serves such inputs in turn", "statement": "The list of requests holds at most one request per input in ascending order; a new request replaces that of its input exactly if its priority is higher. Arbitrate grants nothing if there is no request, and else an input with the highest priority, among those the first from the pointer on in cyclic order, and puts the pointer behind it. An input that requests with the highest priority in every round is granted within as many rounds as there are inputs. The loop of Arbitrate reads through the iterator at the end of the list exactly if all requests but the first are before the pointer; whatever it finds there, the result is the same. RemoveRequest removes the request of its input if there is one; if there is none it may remove that of another input.", "quantifier": "all numbers of inputs, lists of requests, positions of the pointer, values behind the end of the list", "why_tests_cant": "The result is right in every test although memory behind the list is read; fairness concerns all sequences of requests.", "anchors": ["rad-sim/sim/noc/booksim/arbiters/prio_arb.cpp:47-160", "rad-sim/sim/noc/booksim/routers/event_router.cpp:94-103"]}
{"id": "C117", "title": "The adaptive routing functions for the chaos router and planar adaptive routing offer one way only", "statement": "chaos_mesh and chaos_torus call AddRange for every productive direction, all with priority 0, so that the output set keeps the first: a packet is offered the port of the lowest dimension in which it differs from its destination, on the torus the upward port if it is not longer, and no other. planar_adapt_mesh, whose second dimension has the same priority, offers that port alone with the channels from the second third on, if the port is not faulty; then no assertion fails, provided that a packet that came in the first dimension did so on one of these channels. Otherwise the assertion that a plane was found can fail. With a faulty port in the last dimension a packet can be sent up in the first dimension although it is at the upper end. Without faulty outputs planar_adapt_mesh, and on the mesh chaos_mesh, take every packet to its destination on a shortest way without wrap-around links, and under planar_adapt_mesh no packets wait for each other for ever.", "quantifier": "all radices, dimensions, places, destinations, channels, faulty outputs and random numbers", "why_tests_cant": "Packets arrive all the same; only the set of offered outputs shows it.", "anchors": ["rad-sim/sim/noc/booksim/routefunc.cpp:1072-1237", "rad-sim/sim/noc/booksim/routefunc.cpp:1912-1981", "rad-sim/sim/noc/booksim/outputset.hpp:58-62"]}
{"id": "C118", "title": "valiant routing on the torus uses a variable that nothing has written whenever a packet goes on in the dimension in which it came", "statement": "valiant_torus passes its local variable ring_part, not initialised, to dor_next_torus, which writes it only where a packet turns into another dimension. At every router where a packet goes on in the dimension in which it came, the output port is the right one, but the channels offered and the phase stored in the flit are those of ring_part: the lower half for 0, the upper for 1, and for any other value an assertion fails. A packet gets there on its second hop. Where the packet turns, at its first router, and at the node between, the result does not depend on the variable; at its destination in the second phase the packet is offered the ejection port with all its channels.", "quantifier": "all radices, dimensions, places, channel ranges with at least four channels, random numbers and values of the variable", "why_tests_cant": "Memory that was not written often holds the value of the last call, so that runs look right.", "anchors": ["rad-sim/sim/noc/booksim/routefunc.cpp:595-661", "rad-sim/sim/noc/booksim/routefunc.cpp:1383-1460"]}
{"id": "C119", "title": "dimension-order routing on the torus with channels per destination delivers over shortest ways and cannot deadlock", "statement": "dim_order_ni_torus gives the channels of every link to the destinations in equal shares and has no dateline. With at least as many channels as nodes it delivers every packet in as many hops as the torus distance, whatever it draws where both ways round are equally long; no assertion fails, only channels of the packet's type are offered, and the ejection port is offered exactly at the destination. No set of packets can block one another for ever, since whoever holds a channel that a packet waits for goes to the same destination and is nearer to it. With fewer channels than nodes the assertion fails at the first router that is not the destination. At injection all channels of the type are offered.", "quantifier": "all radices, dimensions, pairs of nodes, channel ranges, random numbers and sets of packets", "why_tests_cant": "Freedom from deadlock is about all sets of packets and all orders of their moves, and the wrap-around links close rings that only heavy load fills.", "anchors": ["rad-sim/sim/noc/booksim/routefunc.cpp:595-661", "rad-sim/sim/noc/booksim/routefunc.cpp:1640-1704"]}
{"id": "C120", "title": "minimal adaptive routing on the torus delivers over shortest ways without deadlock if a type has four channels, and takes channels of others if it has three or one", "statement": "With at least four channels for a packet's type min_adapt_torus delivers every packet in as many hops as the torus distance, on channels of its type, offers the ejection port exactly at the destination, and no assertion fails; no set of packets can block one another for ever. Of the adaptive outputs only the one in the lowest dimension left is offered, on the fourth channel alone, because an OutputSet keeps one output per priority; beside it the escape channel is offered. With two channels it is dim_order_torus. With three channels or one a packet is offered a channel after the last of its type, on every torus with at least two nodes per dimension. At injection all channels of the type are offered.", "quantifier": "all radices, dimensions, pairs of nodes, channel ranges, random numbers and sets of packets", "why_tests_cant": "Freedom from deadlock is about all sets of packets and all orders of their moves; a channel of another type is used only under some settings and does not stop the run.", "anchors": ["rad-sim/sim/noc/booksim/routefunc.cpp:595-661", "rad-sim/sim/noc/booksim/routefunc.cpp:1779-1858", "rad-sim/sim/noc/booksim/outputset.cpp:51-61", "rad-sim/sim/noc/booksim/outputset.hpp:58-62"]}
{"id": "C121", "title": "ROMM routing on the mesh with channels per destination delivers over shortest ways and cannot deadlock", "statement": "romm_ni_mesh goes in two phases over a random node between source and destination and gives the channels to the destinations in equal shares, with the same channels for both phases. With at least as many channels as nodes it delivers every packet over a shortest way in the box of source and destination, whatever it draws; no assertion fails, the share of the destination is offered, and at the destination the ejection port with all channels. No set of packets can block one another for ever. A new packet is offered exactly the share of its destination. The port, the phase and the node between are those of romm_mesh with the same draws.", "quantifier": "all radices, dimensions, pairs of nodes, channel ranges, random numbers and sets of packets", "why_tests_cant": "Freedom from deadlock is about all sets of packets and all orders of their moves.", "anchors": ["rad-sim/sim/noc/booksim/routefunc.cpp:820-841", "rad-sim/sim/noc/booksim/routefunc.cpp:909-966"]}
{"id": "C122", "title": "valiant routing on the torus with channels per destination leads a packet past its destination, possibly for ever", "statement": "valiant_ni_torus tests the stored field where it should test the phase, and stores the phase it had at the start: the second phase is never stored, so that a packet that left the node between turns back to it where the part of the ring is 0. On a ring of three nodes a packet reaches its destination after one hop and is not offered the ejection port there, whatever is drawn and whatever the variable that is not initialised holds; where that variable holds 0 the packet goes round the ring for ever.", "quantifier": "all numbers of rounds; all places, random numbers and values of the variable for what is stored; a witness for the rest", "why_tests_cant": "A run shows that packets are late, and only for some draws of the node between.", "anchors": ["rad-sim/sim/noc/booksim/routefunc.cpp:595-661", "rad-sim/sim/noc/booksim/routefunc.cpp:1464-1565", "rad-sim/sim/noc/booksim/flit.cpp:85"]}
{"id": "C123", "title": "the injection processes of BookSim inject at the rate asked for where what they compute is a probability, which nothing checks", "statement": "A Bernoulli source injects exactly when the number drawn is below its rate. A test of an on-off source moves that source alone, by the number drawn, and injects only if it is then on. Whichever of alpha, beta and r1 the constructor computes, a source that is turned on as often as off injects at the rate asked for, if what is computed is a probability. With settings that are accepted, the computed alpha can be above 1, so that a source injects less than asked for, or below 0, so that a source that is off stays off for ever; and with r1 equal to the rate, or with rate 0 and beta to be computed, there is a division by zero.", "quantifier": "all rates, parameters, states, sources and numbers drawn", "why_tests_cant": "The rate is a mean over a long run, and the settings that break it are accepted without a message.", "anchors": ["rad-sim/sim/noc/booksim/injection.cpp:37-49", "rad-sim/sim/noc/booksim/injection.cpp:111-117", "rad-sim/sim/noc/booksim/injection.cpp:143-147", "rad-sim/sim/noc/booksim/injection.cpp:151-190"]}
{"id": "C124", "title": "the statistics of BookSim count every sample once, but the variance they return is never above zero", "statement": "After Clear and any samples, the number of samples, the sum, the average, the least and the greatest sample are those of the samples added, and each bin of the histogram holds the number of samples that belong to it, the first and the last taking what lies outside. The sum of squares is never added to: it is always zero, and Variance returns the square of the average with its sign changed.", "quantifier": "all lists of samples, bin sizes above zero and numbers of bins above zero", "why_tests_cant": "No caller in the repository asks for the variance, so a run shows nothing, and the histogram is counted over millions of samples.", "anchors": ["rad-sim/sim/noc/booksim/stats.cpp:52-74", "rad-sim/sim/noc/booksim/stats.cpp:101-115"]}
