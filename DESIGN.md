# A machine-checked model of RAD-Sim

## What this is

`/verif/rocq` holds a Coq 8.16.1 model of parts of `andrewboutros/rad-flow` and proofs about it.
`properties.jsonl` lists the properties in words, `MANIFEST.json` maps each one to theorems.

## How files are organised

* `theories/<X>Model.v` : definitions only. Each definition cites the file and lines in `/repo` it models.
* `theories/<X>Proofs.v` : lemmas and proofs.
* `theories/<X>Spec.v` : what an outside observer sees, used to state properties without the model's helpers.
* `theories/Prop_<X>.v` : the property theorems, with `Print Assumptions` beneath and an `Example` that shows a concrete case meets the hypotheses.

## Trusted base

* Coq's kernel.
* What `Print Assumptions` lists under each theorem in the build log. It is "Closed under the global context" for all
  theorems but C54_double_monotone and C54_double_exact. These two use Flocq, and with it the axioms behind the real
  numbers of the standard library: `ClassicalDedekindReals.sig_not_dec`, `ClassicalDedekindReals.sig_forall_dec`,
  `FunctionalExtensionality.functional_extensionality_dep` and `Classical_Prop.classic`.
* The reading of C++/SystemC text into Gallina. No code of the project is executed or extracted.
* SystemC semantics assumed: an `sc_signal` write is visible after the current edge; `SC_CTHREAD` bodies run
  once per clock edge; `std::queue`/plain members are visible immediately; when edges of several clocks fall on the
  same instant the order is arbitrary (the schedule is an arbitrary list of events, so all orders are covered).
* Integers are unbounded `Z`/`N`/`nat` unless the property is about wrap-around; then `mod 2^k` is explicit.

## Plan per property

| id | what is modelled | how it is proved |
|----|------------------|------------------|
| C01 | bit ranges of `sc_bv`, field packing, flit slicing, reassembly | bit-extensional equality, all widths |
| C02 | the four threads of the AXI-S slave adapter as a transition system over an arbitrary event list | history invariant: accepted = injected ++ in-flight, by induction |
| C03 | same machine | inductive invariant on sizes |
| C04 | same machine, `InputReady` priority loop | fixed priority proved; fairness refuted by a starving schedule |
| C05, C57 | the three threads of the AXI-S master adapter | history invariant per VC, packets of any length |
| C06 | `OutputInterface` | step invariant |
| C07 | `_ejected_flits` map and one-credit-per-tick loop | invariant; refutation witness for two per period |
| C08 | AR/AW/W packing and decoding | bit-extensional; refutation for len/size/burst |
| C09 | R/B packing and decoding | bit-extensional |
| C10 | capture and cycle counter threads | invariant under the exact-ratio schedule; refutations for ratio 1 and non-integer ratio |
| C11 | `InputReady`/AW destination latch | invariant; refutation |
| C12 | `VCIDFromType`, `InverseVCMapping` | case analysis + order reasoning |
| C13 | `config.py` partition loop | induction |
| C14 | base address arithmetic, node decode | arithmetic on powers of two; refutation otherwise |
| C15, C59 | placement parser's assignment of ids, adapter construction (file syntax not modelled: a placement is a list of parsed lines) | fold invariant; refutations |
| C16–C19 | inter-RAD `writeFifo`/`readFifo`, portals of all devices, on one clock | history invariants over edge lists, both thread orders; refutation of losslessness and of the first bandwidth window |
| C20, C60 | `portal::Tick` | refinement to a queue; refutation under reset |
| C21 | telemetry tables | fold invariants |
| C22 | knob tables | map laws by induction |
| C23 | done flags, exit status | fold; refutation of exit status |
| C24–C26 | arbiters | invariants over histories |
| C27–C32 | allocators | loop invariants; Berge-style argument for C32 |
| C33, C63 | `BufferState` with each policy | history invariant |
| C34–C35 | channel queues, time | history invariant; refutations for ps time |
| C36–C38, C64–C66 | routing functions, `KNCube` | induction on digits; rank of channels for acyclicity |
| C39–C41 | `IQRouter` pipeline with abstract allocators that return matchings | one large invariant |
| C42 | address mapping of both layers | bit arithmetic |
| C43–C45 | memory controller queues | invariants; refutation for C45 unrestricted |
| C46–C50 | DRAM bank, channel, refresh, controller | invariants |
| C51 | pools | invariant |
| C52 | `get_fraction` | arithmetic; refutation for two or more decimals |
| C53–C54 | utilities | arithmetic; Flocq for doubles |
| C76–C79 | routers and channels composed into a network, any wiring | invariant over all channels on top of C39–C41; permutations; induction along the way of a flow |
| C80–C81 | `KNCube` as such a network, routing functions of C36 | wiring from C38; the ways of C36 are where heads may be |
| C82–C83 | the nodes of a network: credits, injection and ejection channels | invariant tying the credit tracker of each node to the credits in the network, on top of C76–C81 |
| C84 | AXI-S adapters on all nodes of a mesh | thread by thread invariant; flits are coded as numbers, C83 gives the network conditions of C55 |
| C85 | AXI-MM adapters on all nodes of a mesh | as C84, with C75 in the place of C55 |
| C86 | packets longer than a channel's buffer, on the systems of C84 and C85 | invariant: no tail has arrived, so nothing was taken out, so no credit went back, so at most one buffer of flits arrived |
| C87–C89 | matrix-vector engine of the MLP example | invariant between the engine and a machine that executes one instruction after the other; a measure for progress |
| C90–C92 | generated programs of the MLP example, all engines together | the program of an engine as two nested loops at the level of instructions; induction over layers and engines with C87, C88 |
| C93–C95 | driver, dispatchers and collector of the MLP example, the test as a whole | FIFO invariants; composition with C91, C92 |
| C96, C97 | the network drains; meshes with dimension order | a potential that falls in every cycle unless the network is empty: every flit, credit, pending route, allocation and pipeline stage has a weight, `tick_pot` in `NetPotential.v`; a network in which nothing stirs is empty, or a node is clogged, or a node has the rest of a packet still to send, by induction on the rank of the channel a flit waits for, `stuck_empty` in `NetStuck.v` |
| C98 | the AXI-S system comes to rest | the potential of C96 plus weights for what adapters and terminals hold (`psi`, `om` in `SysProgress.v`); every thread lowers it or changes nothing (`act_moves`), and if two rounds change nothing everything is empty (`window`) |
| C99 | credits of a node that frees two slots between two cycles | count of freed slots = credits given + waiting + lost (`lost_inv` in `TermLost.v`), with the room of C82 |
| C100 | reading a network file | induction over the words of a line and over the lines (`read_all` in `AnyNetRead.v`), against a description of the lines that does not mention the reader |
| C101 | Dijkstra's algorithm in anynet.cpp | the usual invariant: distances of finished routers are least, first hops lie on least ways (`AnyNetRoute.v`) |
| C102, C103 | networks from files | `any_cfg` is wired (`AnyNetWires.v`) and its routing is lawful (`AnyNetProofs.v`), so that the theorems about all networks (C78, C79, C96) apply; ranks in `AnyNetRank.v` and a decision procedure for them in `AnyNetCheck.v` |
| C104 | client and FIFO | invariant that ties what was sent, the FIFO, the pending transfer and the numbers left (`AddProofs.v`), and a measure that each ready edge lowers |
| C105 | add and mult on the NoC | the run of the design is a run of the AXI-S system (`AddSysProofs.v`), so that the theorems about that system (C98, C99 and those below them) apply |
| C106, C107 | k-ary n-fly | arithmetic of digits in base k (`put` in `FlyProofs.v`), then the theorems about all networks, packed for any routing relation in `RouteNetProofs.v` |
| C108, C109 | fat tree | each channel is one that leads up or down between two levels (`chan_view` in `FatTreeProofs.v`), the prefix of the destination tells where a packet turns; then `RouteNetProofs.v` |
| C112, C113 | qtree and tree4 | both have a fixed size, so that wiring and single routing steps are computed for all ports and destinations (`chk_go`, `chk_rank`); `TreeProofs.v` derives the hypotheses of `RouteNetProofs.v` from that |
| C114, C115 | traffic patterns | closed forms in arithmetic for the operations on bits and digits (`TrafficProofs.v`); a map of the nodes into themselves that is injective permutes them |
| C116 | priority arbiter | the loop is a fold over the requests from the pointer on and then those before it; the distance behind the pointer falls in each round without grant |
| C117 | chaos and planar adaptive routing | the set keeps the first of several calls with the same priority (`adds_one`); induction over the digits |
| C118 | valiant on the torus | the unwritten variable is a parameter; the lowest dimension of difference decides whether the result depends on it |
| C119 | channels per destination on the torus | every way is one of dim_order_torus; rank of a channel: the distance to the destination to whose share it belongs |
| C120 | minimal adaptive on the torus | a way is adaptive hops and then a way of dim_order_torus with two channels, from where the packet took the escape channel |
| C121, C122 | romm_ni, valiant_ni | every way of romm_ni is one of romm; a round of valiant_ni that ends as it began |
| C123 | injection processes | rational arithmetic; the balance of turning on and off |
| C124 | statistics | induction over the samples |
| C110, C111 | aximm_hello_world on its adapters | the invariant of C10 tells that the packetisation is busy at the edge after an acceptance (`edge_view` in `HelloProofs.v`), so outputs need to fit the FIFO only if the last edge accepted nothing |
| C55 | composition of C02 and C05 models with an abstract per-VC FIFO NoC | invariant composition |

Parts that are not modelled: SystemC kernel itself, floating point and statistics output, power/thermal model of
DRAMsim3, BookSim traffic managers and topologies other than mesh, torus, networks from files, k-ary n-fly, fat tree, qtree
and tree4, example designs unless listed.

## What is modelled, part by part

Each line says what the model covers and what it leaves out. Everything not named in a line is not modelled.

* **AXI-S slave adapter** (C01–C04): all four threads, clocks in any schedule. BookSim's buffer check is an arbitrary
  boolean per instant. `tkeep`/`tstrb` are never read by the code after capture and are left out.
* **AXI-S master adapter** (C05–C07, C56, C57): all three threads. Flits arrive from an arbitrary environment;
  credits are counted on both sides of the ejection interface.
* **VC maps, generated ranges, address map** (C12–C14, C58): exact functions of `noc_utils.cpp`, of the
  adapters and of `config.py`. Python's `int(a/b)` is the exact quotient.
* **Placement** (C15, C59): the parser's effect on already split lines; file syntax is not modelled.
* **Portals, inter-device network** (C16–C20, C60): all threads; portals and network share one clock.
* **Telemetry, knobs, cluster** (C21–C23, C61): times are exact rather than `double`; the record id counter does not
  overflow; a knob file is a list of word lists; `stoi`/`stod` are arbitrary partial functions.
* **Arbiters** (C24–C26, C62): every kind, trees of any nesting. The type string is given parsed. Between two Clear
  calls there is at most one Arbitrate (a second one fails an assert in the tree's global arbiter).
* **Allocators** (C27–C32): every kind in `allocators/`. The two maps of a sparse allocator always hold the same
  requests and are one matrix. Random numbers are an arbitrary stream. The output-first separable allocator is the
  input-first code on the transposed matrix. A separable allocator has at least one port on each side. An access beyond
  the size of a vector is `None`, as is a failed assert; the theorems show that neither happens.
* **Credit tracker** (C33, C63): `BufferState` with every buffer policy. Integers are unbounded; a failed check (`Error`)
  or assert is `None`. The statistics under `TRACK_BUFFERS` and the members `_last_id`, `_last_pid` are left out.
* **Channels and time** (C34, C35): `Channel` in full; of the router stages only the queue of timed entries. The time of
  a cycle is the clock edge in picoseconds wrapped to 32 bits; the sum of time and delay does not overflow.
* **Utilities** (C51–C54): the object pools; hop counts modulo 2^32; cycle numbers and `get_fraction` in binary64 as
  specified by `Coq.Floats.SpecFloat` (definitions only, no primitive floats). The rounding of the fraction to three
  places by Python's `format` is an input; its final sum is not rounded.
* **Routing** (C36–C38, C64–C66): the wiring of `KNCube` and the routing functions dim_order, dim_order_ni, dim_order_pni,
  xy_yx, adaptive_xy_yx, min_adapt, romm and valiant on the mesh, dim_order and dim_order_bal on the torus. Random numbers and
  the comparison of credits are arbitrary. Latencies, `_use_noc_latency`, watching and failed channels are left out. The
  other functions that are registered for meshes and tori are below; limited_adapt_mesh, which is not registered, is not modelled. A packet in
  the deadlock statements holds the last channels of its way; allocation and flow control inside a router are not part of it.
* **Router** (C39–C41): the step of `IQRouter` with the settings RAD-Sim writes (no speculation, hold, noq or speedup; the
  allocators and the crossbar take one cycle; routing takes zero or one). The allocators are any functions whose result is a
  matching of the requests (C27–C32 show that the real ones are), routing functions any functions that name existing channels
  once. The buffer policies are those of C33 and C63. Neighbours are assumed to send packets, obey credits and return
  credits only for flits received. Watching, power and statistics are left out, and so are channel faults.
* **Network** (C76–C81): one subnetwork: the cycle of `radsim_noc::Tick` on channels and routers, any wiring, and the wiring and delays
  of `KNCube`. The routers are those of C39–C41. Each cycle is given the flits and credits of the nodes, the results of the allocators
  and routing functions. The number of a flit stands for everything the routers do not look at; source, destination and virtual
  channels of its type are functions of it, so routing functions that store something in the flit (romm, valiant, torus) are not
  covered by C80. Since the channels come before the routers in `_timed_modules`, a channel is written after it delivered.
* **Nodes of the network** (C82, C83): the part of the adapters' injection threads that deals with BookSim (buffer check, route computed in
  advance, credit), reading flits, freeing slots, and `Tick`. An execution is a list of such events in any order; taking turns is a
  hypothesis (`in_turn`), since SystemC does not fix the order of threads at an edge. One adapter per node injects and one reads; a node
  without adapters sends nothing and reads at every edge. Private buffers only (`config.py` writes no other).
* **Memory addresses** (C42): `SetAddressMapping`/`AddressMapping` of the DRAM simulator and `AddressMapping`/`ChannelFromAddr` of the
  memory controller, with 64-bit wrap-around, mapping strings as strings, and shifts outside the range of `int` as failures.
  `(int)log2(n)` of a positive `int` is taken to be exact.
* **DRAM controller** (C46-C50): one channel of the DRAM simulator: bank state machines, channel state with timing and activation
  windows, refresh, command queues with write dependency and row hit arbitration, the transaction queues, dual commands, self-refresh,
  the return queue, and the timing tables as functions of the parameters. An execution is a list of operations: offer a transaction
  (accepted if the controller would accept it, as the memory controller does) or advance one cycle. Simplified: times are integers
  and wrap at 64 bits where a delay is added; the address decoder is any function into the geometry (C42 treats the real one);
  the hybrid memory cube, statistics, power and thermal models and command traces are left out.
* **Memory controller** (C43-C45, C67, C68): one channel of mem_controller after reset: Tick, MemTick, Assign and the two callbacks, for any
  DRAM given as a record of three functions. The theorems need of the DRAM only that it returns what it accepts, writes in order
  (`dram_ok`); C43_dram proves this of the DRAM simulator. An execution is a list of clock edges with the inputs and the order of the two
  threads. The channels share only the DRAM, whose channels are separate (C42), the flag that lets reads or writes go first, which changes
  at every cycle, and Assign, which another channel may wake (`i_other`). Simplified: queue lengths are unbounded integers; what front()
  of an empty queue of outstanding reads yields is a parameter; reset during operation and the initial contents of the memory file are
  left out.
* **AXI-MM formats and input side** (C08-C11, C69, C70): capture, packing, flit splitting, reassembly and unpacking of the five channels;
  InputReady, InputInterface, InputPacketization and InputInjection of both adapters. An execution is a list of instants; at each the
  threads of any subset of the three clocks run in any order. Signals show the values from before the instant, the injection queue is
  changed at once. InputReady runs when a signal it is sensitive to differs from its last run, or when the environment says so. Ids
  handed out by telemetry, acceptance by the NoC buffer and the offers are arbitrary. Reset during operation and records are left out.
* **AXI-MM output side** (C71-C74): OutputEjection, OutputDepacketization and OutputInterface of both adapters, executions as above.
  The flits BookSim delivers to the node are an arbitrary list, and whether one is there at an edge is decided by the environment.
  Counters are unbounded. The module is represented by its ready signals at each node edge. Telemetry is left out.
* **End to end AXI-S** (C55): any number of slave adapters and one master adapter, composed through an assumed NoC. The assumption is
  the predicate `noc` (EndToEndSpec.v): per virtual channel and sender the arriving flits are a prefix of the flits put in, and packets
  on one virtual channel do not interleave. The NoC may change the virtual channel of a packet and delay anything. C84 shows that
  the modelled mesh meets it.
* **AXI-S system** (C84): slave and master adapters on every node of a modelled mesh, run together with the terminals and routers. An
  execution is a list of instants, each with the threads that run in their order; the calls between adapters and NoC are the function
  calls of the code (WriteFlit, ReadFlit, the buffer state, the map of ejected flits). Simplified: every node has both adapters (a node
  without them is one whose module offers nothing); a flit is coded as a number for the network, with a proof that decoding gives the
  flit back; injection and ejection threads take turns with the cycles of the network (`take_turns`), as in C82.
* **AXI-MM system** (C85): an AXI-MM slave or master adapter on every node of a modelled mesh, in the same way. A node has one adapter;
  a mixture of AXI-S and AXI-MM adapters is not modelled.
* **End to end AXI-MM** (C75): the same for any number of AXI-MM adapters and one receiving adapter, predicate `xnoc`
  (EndToEndMMSpec.v). Here the NoC keeps the virtual channel, so each type has one (see C71 for two).
* **Matrix-vector engine of the MLP design** (C87–C89, `MvmModel.v`): `mvm`, its five FIFOs and its register files, edge
  by edge, with every condition for errors. The combinational process runs only if a signal of its sensitivity list has
  changed, and reads its own outputs of the run before. Reset and the loading of files by the constructors are the
  initial state. `tdest` is kept as layer and engine number and not translated into a NoC address. Strobes, logging and
  the `profiling` counters are left out. A pulse on an input between two edges is a flag of the environment. Results of
  `sc_bv` to number conversions are modelled for the widths in the code.
* **MLP design** (C90–C92, `MlpModel.v`): `gen_testcase.py` (weights, instructions, inputs, expected outputs; files as
  lists of lines of numbers; random numbers are arbitrary functions; text formatting and directories left out),
  `ParseInstructions` and the loading of the register files. Engines are those of C87. The network is a relation between
  what was sent and what was received: each receiver gets a prefix of what each sender sent to it, in order. The
  translation of layer and engine to NoC addresses is not part of it.
* **MLP driver** (C93–C95, `MlpIoModel.v`): `ParseIO` (numbers out of the range of an int stop at the limit and the rest
  of the line fails), the source thread with one dispatcher, the collector with the sink thread, the verdict. One clock
  for all. The end of the simulation (`sc_stop`) and the printing are left out.

* **Liveness of the AXI-S system** (C98, C99): about the models of C84 and C96, nothing new is modelled. Conditions: the threads and the network
  all run again and again, the modules take what they are given, allocators grant something when asked, and no node unpacks twice between two
  cycles of the network. The last one is needed because `_ejected_flits` has one entry per node (C99, `C98_hurried_refuted`).

* **Networks from files** (C100-C103): `anynet.cpp` from the text of the file to the tables (`AnyNetModel.v`). Maps are lists sorted by key. A negative
  number of a router or node is `None` (the program fails later or writes outside an array); an access outside an array is `None` in `any_net`. The
  loop in `route` that never ends is a table that is `None`. Numbers are unbounded; `max_int` is the starting distance. Printing is left out.

* **Example designs add and mult** (C104, C105): driver, client, FIFO, adder and multiplier (`AddModel.v`), on the AXI-S system of C98. Reset is over; printing
  and telemetry are left out; each module interface has one clock. A read from an empty FIFO is `None`. C105_finishes starts when the NoC has taken all numbers.
* **k-ary n-fly** (C106, C107): `fly.cpp` and `dest_tag_fly` (`FlyModel.v`). Numbers are unbounded, `k` and `n` at least 1. The branch of the routing
  function for injection (all virtual channels of the type) is left out, as in the other routing functions.

* **Fat tree** (C108, C109): `fattree.cpp`, `fattree_nca` and `fattree_anca` (`FatTreeModel.v`). Numbers are unbounded, `k` and `n` at least 1. Random
  numbers and the credit counts that `fattree_anca` compares are arbitrary. The branch for injection is left out, as above.

* **Trees of fixed size** (C112, C113): `qtree.cpp`, `tree4.cpp`, `qtree_nca`, `tree4_nca` and `tree4_anca` (`TreeModel.v`), with the sizes that the code asserts. The calls
  of AddInputChannel and AddOutputChannel are lists, from which the ports follow. `_WireLatency` is never called and left out, as is the branch for injection.

* **Traffic patterns** (C114, C115): the functions `dest` of `traffic.cpp`, the checks of their constructors and `randomize` (`TrafficModel.v`). RandomInt(max) is an
  argument from 0 to max. `TrafficPattern::New`, which reads the parameters from a string, and saving and restoring the state of the generator are left out.

* **Priority arbiter** (C116): `prio_arb.cpp` (`PrioArbModel.v`). The value read at the end of the list is a parameter. The event router, which uses the arbiter, is
  not modelled.

* **Chaos and planar adaptive routing** (C117): `chaos_mesh`, `chaos_torus` and `planar_adapt_mesh` (`ChaosModel.v`), the last with faulty outputs. The chaos router is
  not modelled, nor is `limited_adapt_mesh`, which is commented out.

* **Valiant routing on the torus** (C118): `valiant_torus` (`ValiantTorusModel.v`). The value of `ring_part`, which is read without having been written, is a parameter.

* **Channels per destination on the torus** (C119): `dim_order_ni_torus` (`NiTorusModel.v`). The null pointer for the partition is modelled by not using the partition of the result.

* **Minimal adaptive routing on the torus** (C120): `min_adapt_torus` (`MinTorusModel.v`), with the set that keeps one output per priority.

* **romm_ni_mesh and valiant_ni_torus** (C121, C122): `RommNiModel.v`. The value of `ring_part`, which is read without having been written, is a parameter.

* **Injection processes** (C123): the constructors and `test` of `injection.cpp` and the check of the parameters in `New` (`InjectionModel.v`). Doubles are rational numbers
  and not rounded; a division by zero is `None`. The numbers drawn are arguments. Reading the parameters and the first states from a string is left out.

* **Statistics** (C124): `Clear`, `AddSample`, `Average` and `Variance` of `stats.cpp` (`StatsModel.v`). Doubles are rational numbers and not rounded; samples that are NaN
  and bins beyond the range of int are left out. The specification is in `StatsSpec.v`.

* **Example design aximm_hello_world** (C110, C111): driver, requester and responder (`HelloModel.v`), each on the input side of its AXI-MM adapter (C10). Reset is over; the
  driver has the clock of the modules; counting responses and printing are left out; the way through the NoC between the two is not part of these properties. A pop
  from an empty FIFO is `None`. That all clocks are in phase follows from design_context.cpp:9-38, where no start time is given.

## Mutation runs

`seeded/LOG.jsonl` has one line per attempt. "Failed" lists the theorems whose proof, or a lemma it uses, no longer compiles with the edited
definition. That a proof script stops compiling does not by itself prove that the theorem is false of the edited program; the claim column
says why it should be. Attempts after which every proof still compiles are logged as well, with the reason or the theorem added.
