# Design: a Rocq model of Shamrock's algorithmic core

Target: Shamrock-code/Shamrock as checked out in /repo (C++/SYCL). The code is read as text; nothing is built.

## Conventions

* `theories/Base.v`: outcome type `res` (`Ok | Throw | UB`), word wrap (`w32`, `w64`), arrays as lists with
  checked read/write. An out-of-bounds access, a failed `SHAM_ASSERT`, or an unbounded loop is a distinct outcome
  (`UB`/`Throw`), never a normal value.
* `X.v` is a model file (definitions only, each with a `/repo` citation), `X_spec.v` the independent vocabulary in
  which the property is stated, `X_proofs.v` (and siblings) the proofs, and `P_X.v` the property theorems `Cnn_...`
  with `Print Assumptions` and a concrete non-vacuity `Example`.
* Integers are `Z`/`N`/`nat`; wrap-around is written explicitly where the code relies on it, or a comment says why
  it cannot happen.
* A SYCL `parallel_for` / OpenMP loop is modelled as a fold of the kernel over an arbitrary permutation of the
  work items (`par_for`). Kernels whose work items share memory (decoupled look-back scan, in-place propagation of
  the BVH boxes, event handler, message passing) are modelled by interleavings of single accesses.
* Fresh or recycled device memory has arbitrary contents: they are arguments of the model, universally quantified.
* `_refuted` theorems show, on the model, that a natural stronger statement is false of the code.
* Negative results found while modelling are listed under "Findings".

## Plan per property (model -> proof technique)

| id | model files | technique |
|----|-------------|-----------|
| C01, C02 | Serialize | host header + device content regions as byte lists with heads; induction over the item list |
| C03, C04 | Streams | stream = byte list with cursor; induction over records |
| C05-C07 | Integer, Bits | `N`/`Z` words with wrap; bit lemmas |
| C08-C12 | Containers | sorted association lists (std::map semantics) refined to functions; stack refined to a list |
| C13, C14 | Morton | bit-level `N` functions; testbit extensionality |
| C15 | Hilbert | per-level step, induction over bits; continuity |
| C16 | Karras, Karras_abs | fuel-bounded kernel loops proved sufficient; theory of common prefixes over strictly sorted codes |
| C17 | Traverse | stack invariant over the unfolded tree |
| C18 | Par, Reduction | split table iteration; list of leaf starts; schedule independence |
| C19-C21 | Scan, Lookback | host scans by induction; decoupled look-back as small-step interleaving with invariant |
| C22 | Bitonic* | direct proof on bitonic sequences, stencil = composed stages |
| C23, C24 | SortSearch | loop invariants |
| C25, C26 | Patch, PatchTree | boxes in Z with u64 wrap; tree as finite map, invariant by induction over histories |
| C27, C29, C31, C32 | Sched* | multi-rank state, invariant over histories of operations; messages in arbitrary order |
| C28 | F64, LoadBalance | IEEE binary64 (Flocq) error bounds |
| C30 | Events | trace semantics with arbitrary completion sets, happens-before invariant |
| C33, C34 | BVH* | composition of C13/C16/C17/C18/C22; in-place propagation as interleaved accesses, invariant "nodes of rank <= k are final" |
| C35 | DeviceBuffer* | refinement: every history of calls on any number of buffers simulates arrays with unspecified cells; storage/accounting invariant |
| C36 | Layer* | refinement: every history of calls on any number of layers (fields = flat buffers with `nvar` values per object) simulates lists of whole objects; kernels under every schedule; exceptions leave the state unchanged |
| C37 | Domain* | binary64 (Flocq) model of the conversion of patch boxes to boxes of positions; monotonicity of every rounded step gives a cell to each position, then C27; exact cover for powers of two; integer conversion in both modes; base grid |
| C38 | PatchData* | split/merge of the layers of a rank (on top of the field model of C36 and the conversion of C37): objects selected by the float test are the objects of the integer cell; refinement of the data part of Sched; no existing patch is overwritten |
| C39 | SerialTree* | get_serial_tree/build_from_patch_tree as a preorder copy (induction on the height, bounded by 65 because boxes halve), search as descent through nested cells (boxes of C37), leaf visits; every order of the root set |
| C40 | SerialTree* | make_patch_tree_field as sequences of single reads and writes; invariant per level: nodes at distance at most l from the deepest level are final after l kernels, whatever is read of the others |
| C41 | SparseXchg* | build_sparse_exchange_table of all the ranks; the exchange as a transition system over all ranks (a rank posts the requests of its next message, MPI pairs two requests, MPI completes a request); invariant: the requests of each rank are determined by its position and the sets of paired and completed messages; measure for termination; the least posted message gives progress |
| C42 | DDComm* | distributed_data_sparse_comm (mode "new") on all ranks: grouping by pair of ranks, splitting, serialization (model of C01), tables and exchange (model of C41), copies to and from the caches, reading of the received messages; composition of the round trip of C01 with C41; refuted: the splitter keeps messages within the limit (it omits the 8 bytes of the header) |
| C43 | DDSer*, LayerSer* | serialize_sparse_comm for any type of objects on top of the model of C42 (objects of the same rank set aside, map, communication, map back, merge); serialize_buf/deserialize_buf/serialize_buf_byte_size of PatchDataField and PatchDataLayer on top of SerializeHelper (C12) and the layers of C36; round trip by induction over the fields, then used as the hypothesis of the exchange |
| C44 | Reattr* | reatribute_patch_objects on all ranks: compute_new_pid, extract_elements (loops over patches, objects, unordered map), serialize_sparse_comm (C43), insertion; the operations of the layers come from C36, the exchange from C42/C43, the owner search from C39. Extraction by induction over the patches with a characterization of the multimap by its values; a sorted multimap is determined by these; then the insertion by induction; conservation by permutations |
| C45 | Dtt* | dual tree traversal of the BVH of C33: recursive reference, scan multipass (kernels with buffers kept and grown between passes, scans, compactions), parallel select (fixed-size stacks, two kernels), ordering by counting sort and segmented sort. All are related to one walk over pairs of subtrees; the walk covers each pair of leaves once (induction on the heights); kernels by disjoint segments; stack bound from the separation of the boxes of siblings (Morton prefix boxes) |
| C46 | Fmm_tensors, Fmm_ops (generated from the headers by tools/gen_fmm.py), Fmm_orders, Fmm_* | tensors of rank 1-5, collections, moments, Green tensors, contractions, translations over R; specification by words of indices (sums over all index choices), moments of point masses, `derivable_pt_lim` along each axis. Every component is discharged by `ring`/`field` from the formula; sums over masses by linearity |
| C47 | Interleave, Sgfmm, Sgfmm_* | SGSFMMPlummer::update end to end on the tree of C33: the kernels as work-item loops over flat buffers, the upward and downward passes as arbitrary interleavings of the single accesses of the items (sequentially consistent, see findings), the traversal of C45, the operators of C46, the inversion of the cell/particle lists with counting, scan, atomic scatter and segmented sort. Invariants: after enough rounds every cell holds the moments (resp. field) of its subtree (resp. of the far cells of all its ancestors); the double sum is then regrouped by the partition of pairs proved in C45 |
| C48 | Sgmm, Sgmm_* | SGDirectPlummer (reference loop; tiled kernel with local memory, barriers as phases, any item order in each phase), SGMMPlummer and SGFMMPlummer on the tree of C33 with the moments of C47, the traversal of C34 and the operators of C46. The events of a walk are the frontier of the opening criterion; each particle is below exactly one frontier cell, which regroups the sum |
| C49 | Ncache, Ncache_* | compute_tree_field_max_field (upward passes as arbitrary interleavings), the scaling by htol, the counting and filling kernels of both versions of the neighbour cache, prepare_object_cache and ObjectCacheIterator, on the tree of C33. A walk finds exactly the leaves whose ancestors all satisfy the condition; interacting particles satisfy it at each level; a position is inside the box of its own leaf only (siblings are strictly ordered on one axis) |
| C50 | Sphd, Sphd_* | The pair functor of the three non-magnetic force kernels and the functions it calls (forces.hpp, q_ab.hpp, rho_h, inv_sat), the loop over the neighbour lists, the stores. The pair terms equal a specification written without the helper functions; the sum over a list that covers equals the sum over all particles because the kernel vanishes outside; conservation follows from antisymmetry of the pair terms |
| C51 | Sphker, Pwpoly, Sphker_* | Every polynomial kernel, translated statement by statement from the C++ text by tools/kernels2coq.py (Sphker.v is the model, and is what is trusted; the tool is not), and SPHKernelGen. Each function is proved equal to a piecewise polynomial with rational coefficients proposed by the tool (`field`/`lra` on each piece); derivatives, junctions, signs, antiderivatives and norms are then decided by a verified checker on the coefficients and rescaled to h. Of the truncated Gaussians only f, df and ddf (`C51_tgauss`): their norms are decimal approximations and their potentials use erf; the numerical projections f3d_integ_z, Y_3d are not modelled |
| C52 | Hiter, Hiter_spec, Hiter_* | The two iteration kernels, the loop with its reductions over patches and ranks, the subcycles of sph_prestep, ComputeOmega and SetWhenMask. The Newton division has IEEE infinities and NaN as results. Proof: covering lists make the list sum equal to the sum over all the particles (C51 compactness), the derivative comes from C51; the per-particle invariant `good` (reach, and h >= hold / p^k after k iterations) shows that a small eps can not come from a damped step; then induction over iterations, ranks and subcycles. The construction of ghosts and lists in each subcycle is a hypothesis (`rebuild_ok`); C52_lists derives it from C49 for one patch |
| C53 | Riemann, Riemann_spec, Riemann_* | prim/cons conversions, the x solvers line by line, the rotations of the other five directions, the dispatch of FluxCompute and DustFluxCompute, the three limiters; real arithmetic. Proof: each direction is a rotation of the x solver (`flux_rot`); antisymmetry by the parity of every wave speed; positivity from the convexity of the cone of states with positive internal energy, S U - F(U) being in it for S >= v + c; HLLC star states by completing the square |
| C54 | Godunov, Godunov_spec, Godunov_* | the gas part of one Ramses step, module by module: block graph, cell graph (counts, scan, fill), cell boxes, cons-to-prim, slope limited gradients, face interpolation with the half step prediction, fluxes, surfaces, flux sum, integrator. Environment: the candidates the tree walk offers for a block contain all blocks meeting the search box (that is C40); ghosts are images of the owners' cells (spec `sim_ok`). Real arithmetic, no dust. Proof: the module chain computes a pure function of the cell lists; link (a,b,+) exists iff (b,a,-) does, with opposite flux and equal area, so the double sum over all patches cancels under the bijection of links; a cell's face is tiled by its neighbours' faces (counting unit squares); positivity by convexity (C53); face states exact for affine flows (`Godunov_lin`): the four half-size neighbours have centres that average out |
| C55 | ObjCache, ObjCache_spec, ObjCache_proofs | the whole handler as a state machine with exceptions that keep the state; the entries' content and allocation sizes; the generator is a function of the id (or throws). The generator calls and device builds are logged (ghost). Proof: invariant over histories; the duplicated queue entries are a stale prefix of at most one id, which cannot come back without an eviction |
| C56 | Sink, Sink_spec, Sink_proofs, Sink_accr, Sink_forces, Sink_cons, Sink_step, Sink_more | flagging, accretion, eviction (with the stream compactions and reductions in any order), forces, leapfrog, the order of the calls in a time step; real arithmetic; the hydro accelerations of each corrector turn are a parameter (C50 is about them), the redistribution of the particles over patches is any permutation. Proof: each kernel is a map whatever the schedule; partition of the gas by captor; Newton's third law by exchanging sums |
| C57 | SphGhost, SphGhost_spec, SphGhost_geo, SphGhost_main, SphGhost_img, SerialTree_cover | find_interfaces, the id tables, the exchange, the shifts and the merge; real arithmetic; on top of the models of the scheduler (C31, C32), of the serial patch tree (C39, C40) and of the exchange (C42, C43), whose message order is any permutation. Proof: the pruned walk of the tree visits every patch whose grown box meets the searched one; the images of the tables are then filtered by the box test, so the result is the expected multiset; lattice argument for the neighbours |
| C58 | SphWrap, SphWrap_spec, SphWrap_proofs | the two kernels with an abstract rounding after each operation (identity: exact statements; binary64: bounds and counterexamples), the counts of boxes as i32 with undefined overflow, in place updates in any order. Proof: fmod is a representative of the class modulo the length; uniqueness of the representative in the half open box; the number of wraps equals the floor used for the shear; cell argument of C37 for the patches |
| C59 | Amr, Amr_spec, Amr_proofs, Amr_lists, Amr_geo, Amr_order | the default (old_amr) change of the grid of one patch, with the kernel of the merge flags at the grain of one memory access per step, real fields, integer coordinates. Proof: an interleaving invariant (a flag which is set implies that every flag of the group was set at the start and that the blocks are octants); the kernels write disjoint blocks; the result is a permutation of the other blocks, the children and the merged blocks; exact cover and totals of a box by its octants; the Morton keys of the first two blocks of an octet in x-first order are not consecutive |
| C60 | TwoOne, TwoOne_spec, TwoOne_proofs, TwoOne_der | the refinement sweeps and the kernel of the merge flags at the grain of one access per step, the derefinement sweeps with two buffers, u64 levels that wrap. Proof: an interleaving invariant (flags lie between one step of the rule and its closure); the level of the newest flags falls by one per sweep, so 63 sweeps suffice; likewise for the blocks that stop being mergeable; the final flags are a fixed point, from which the bound on the levels follows |
| C61 | EvolveUntil, EvolveUntil_spec, EvolveUntil_proofs, EvolveUntil_ends | the loop of the SPH solver on IEEE doubles (Flocq), with the i32 counters and the estimate of the next clock check; evolve_once is reduced to time and time step, the CFL steps and clock readings are arbitrary sequences. The evolve_until of the Ramses and GSPH solvers, and the logs, are not modelled. Proof: an invariant on the steps done; Sterbenz's lemma and half-ulp bounds for the clamped step; a measure in halves of the smallest step for termination |

Further rows are appended below as the model grows.

## Trusted base

* Coq 8.16.1's kernel (and its VM, used by `vm_compute` in examples and refutations).
* The statements: `*_spec.v` files, the statements in `P_*.v`, and the definitions of the model files `X.v`, whose
  correspondence with the C++ was made by reading.
* Axioms (from `Print Assumptions`, printed by the build after every property theorem): every theorem is "Closed
  under the global context" except those of C28 and the binary64 theorems of C37 and C38 (those with `float` in their name, and their examples), C39 and C40, `C44_owner_binary64`, C46, C47, C48, C49, C50, C51, C52, C53, C54, C56, C57, C58, C59 and C61, which use
  the standard library's axioms of the classical real numbers: `ClassicalDedekindReals.sig_not_dec`,
  `ClassicalDedekindReals.sig_forall_dec`, `FunctionalExtensionality.functional_extensionality_dep`, and
  `Classical_Prop.classic`. C51 uses Coquelicot's integral, which adds no axiom to these. No axiom is declared in this development, no kernel check is switched off.

## What is not modelled

* The C++ language itself: object lifetimes, templates, exceptions thrown by allocation, compiler reordering, weak
  memory (accesses are sequentially consistent; the look-back scan uses the atomics of the code).
* Floating point is modelled only where said (C28: binary64 through Flocq). Positions in C33/C34 are an arbitrary
  totally preordered type, so NaN coordinates are excluded.
* MPI is modelled as reliable point-to-point messages matched by (source, destination, tag), arriving in any order.
* Rounding in the fast multipole operators (C46: exact real arithmetic).
* Physics solvers other than those named above, IO formats other than the streams of C01-C04, Python bindings, unit handling.

## Findings (bugs and limits exhibited by theorems)

* `C16_more_than_2p24_codes_refuted`: the Karras split search goes through `float`; beyond 2^24+1 codes the tree is wrong.
* `C17_full_width_codes_refuted`: the traversal stack (`significant_bits + 1`) overflows for full-width codes; Morton
  codes made by the library stay below `2^significant_bits`, for which it is sufficient.
* `C28_empty_refuted`, `C28_overflow_refuted`: `load_balance` of an empty list reads out of bounds; u64 overflow of the
  accumulated load gives an undefined float -> int conversion.
* `C35_fill_wraparound_refuted`: `fill(v, {2^64-1, 0})` passes the range checks by wrap-around and writes before the
  buffer; `C35_append_4G_refuted`: appending a buffer of 2^32 elements silently appends nothing.
* C36: `extract_element` loses values when a field has more than one variable per object
  (`C36_extract_element_vector_refuted`); `extract_elements` with a repeated id throws after the first field of the
  destination has grown, leaving fields that disagree (`C36_extract_duplicates_refuted`); `expand` adds in u32
  (`C36_expand_wraparound_refuted`); `permut_vars` throws on an empty field (`C36_permut_vars_empty_refuted`).
* C37: the patches may not cover the simulation box: `C37_cover_refuted` (box [-1, 2^-60): the length rounds to 1 and the
  last patch ends at 0) and `C37_cover_49_refuted` (base grid with 49 patches on an axis, box [0,1): 49*RN(1/49) < 1);
  a particle there passes the check against the simulation box but belongs to no patch.
* `C06_roundup_pow2_clz_u64_refuted`: `roundup_pow2_clz` on u64 shifts a 32-bit `1U`: undefined beyond 2^31.
* C39: when the first root patch was never split, compute_patch_owner gives the id of that patch to every position outside of
  all the patches (`C39_outside_refuted`), so that ReattributeDataUtility, which throws only on u64_max although its comment says
  that it throws when a position is out of bounds, moves the object to that patch; with no patch at all the search reads outside of
  the arrays (`C39_empty_refuted`).
* C42: serialize_group_data_max_size splits so that the *content* of a message is at most max_comm_size, but the message
  is 8 bytes longer (SerializeHelper header), so a group of objects each of which fits can produce a message that
  build_sparse_exchange_table refuses (C42_split_limit_refuted); the splitter also uses max_comm_size even when the
  device limit used for the table is smaller. serialize_sparse_comm does not forward its comm_table argument. A rank
  that throws while preparing its messages leaves the other ranks waiting in the collective calls.
* C45: the parallel select traversal has stacks of tree_depth_max + 1 entries, enough for points (proved) but not
  for arbitrary boxes: `C45_select_ranges_refuted` gives 13 boxes with a common corner that overflow the 32 entries
  used with 32-bit codes (FixedStack::push is only guarded by an assertion).
* C47: on a tree with a single leaf (e.g. one particle, or all particles in one leaf) the L2L loop of SGSFMMPlummer calls `kernel_call` with 0 work items, which throws (kernel_call.hpp:44-46); compute_tree_mass_moments guards that case, SGSFMMPlummer does not: theorems `C47_single_leaf_throws` and `C47_single_particle_refuted`. The self pair needs eps > 0 (0 * inf otherwise). The far field is not softened. The flags of the downward pass are not atomic: the proof assumes sequential consistency. The inverted list is indexed with 32 bits: the theorem requires npart * (bits + 1) < 2^31.
* C48: with an opening angle of 0 (which suggests an exact sum) the MM and FMM walks accept a cell centred on the particle, because `theta = theta_crit * 2 > theta_crit` is false at 0: the derivatives of 1/r are taken at r = 0 (theorem `C48_zero_angle_refuted`). The u32 tile offset of the direct kernel wraps for more than 2^32 - 32 particles (the theorem requires fewer than 2^31). The direct sum omits the pair (i, i), the walks add it with softening: they need eps > 0.
* C49 (limits of the claim, no defect): positions, radii and distances are real numbers. In floating point the box test of a walk and the distance test of the functors round differently, so a pair exactly at the boundary may be lost by one of them. The 32-bit sum of the counts wraps silently for 2^32 neighbours or more (the theorem requires fewer pairs). With zero objects `prepare_object_cache` reads element -1 of the counts (`UB` in the model).
* C50 (defect, dead code): `sph_pressure_symetric_av` (forces.hpp:99-122, documented as equation 34, no caller) adds `qa_ab` to `P_b` and `qb_ab` to `P_a`: `C50_symetric_av_refuted`. The functions used by the kernels are right.
* C50 (limits of the claim): particles closer than 1e-9 exert no force on each other (`inv_sat_positive`, an absolute threshold, whatever the unit of length); this is part of the specification (`direction`). Conservation is for a patch without ghosts.
* C51 (limits of the claim): the second derivative of the shifted kernels jumps at the edge of the plateau (r/h = 1, 3/2, 7/4, 15/8), where M4 starts with f'' = -3 but the plateau has f'' = 0; the truncated Gaussians jump by exp(-9) and exp(-25) at their truncation radius, so dW_3d is not the derivative of W_3d there.
* C52 (limits of the claim): (a) the iteration of a particle stops at the hard coded eps <= 1e-6 whatever epsilon_h is, so an epsilon_h below 1e-6 leaves a particle frozen at epsilon_h <= eps <= 1e-6 and the loop then always ends unconverged; (b) if epsilon_h > (p-1)/p^N a step cut by the damping can be taken for convergence (not with the default values: 1e-6 against 8.5e-4); (c) after hstep_max unconverged subcycles sph_prestep only logs an error and goes on to compute_omega, although part_counts and the neighbour cache were freed by the last subcycle; (d) the limiter shrinks h by one factor per call and then marks the particle as converged (eps = 0), so the support can still contain more than max_neigh_count particles.
* C53 (conservation, refuted for HLLC): the pressure estimate of hllc_flux_x is the acoustic one (PVRS) only, so in a strong compression the computed left speed is positive and the right one negative (S_L > S_R). C53_conservation_hllc_refuted: two streams with v^2 > a^2 + (gamma+1)/2 v a (Mach 1.87 for gamma = 5/3) meeting at a face; each side takes its own flux and loses the mass rho v, so the total mass, momentum and energy are not conserved. The comment in the code leaves better estimates as a TODO. Also S_star can leave [S_L, S_R] without compression, for a strong pressure jump into a much lighter gas; C53_conservation_hllc and C53_hllc_waves give the condition under which none of this occurs.
* C53 (huang_bai_flux_x): when one of the two normal velocities is exactly 0 no branch is taken and the flux is 0: dust arriving at dust at rest stops at the face (C53_dust_hb). It stays consistent and conservative.
* C55 (host memory counter, refuted): push_offload adds the size of the host vectors, pop_offload subtracts the size of the device allocations of the rebuilt entry, which are rounded up to the alignment: the counter drifts and wraps below zero (C55_host_counter_refuted). It is only printed.
* C55 (build_cache, refuted for an id already on the device): push_cache adds to the counter before add_obj throws, so the counter stays too large (C55_build_again_refuted); get_cache and preload never do this. push_new appends the id a second time to last_device_builds, so each build leaves a duplicate; it is harmless (C55_oldest_first) unless a call has failed (C55_order_after_failure_refuted).
* C56 (angular momentum, refuted): a step in which a sink captures a particle changes the total angular momentum by dt/2 M (X'-X) x A, although all the forces and torques balance (C56_angular_momentum_refuted): the accreted acceleration is averaged, but applied at the new position of the sink.
* C56 (central objects, refuted): point_mass_accrete_particles dereferences an empty optional when all the particles of a patch are captured (C56_central_whole_patch_refuted, ExternalForces.cpp:700). The Paczynski-Wiita force takes a central position, which the accretion ignores (C56_pnpw_centre_refuted, ExternalForces.cpp:628).
* C57 (margin, refuted): the margin is the interaction radius of the receiver only (sender_h_max is computed and not used), so a particle that reaches a particle of another patch by its own radius may be missing there, although the pair is seen from its side (C57_scatter_refuted).
* C57 (small boxes, refuted): only the images at most one box away are sent, and nothing checks that the radius fits (C57_small_box_refuted).
* C57 (shear sign, refuted): with a negative shear_dir the whole number of boxes is added instead of subtracted, as the sign is counted twice (BasicSPHGhosts.cpp:217-221); once the shear exceeds one box length the images are misplaced (C57_negative_shear_refuted).
* C58 (upper face, refuted): in double precision a particle one ulp below the lower face of the box [1,2] is put exactly on the upper face, outside the half open box (C58_upper_face_refuted): it belongs to no patch and the reattribution throws (C44_lost_object).
* C58 (inside, refuted): the wrap changes positions that are already inside, as adding the length of the box drops low bits (C58_inside_rounded_refuted).
* C58 (shear count, refuted): a position exactly a whole number of boxes below the lower face is counted one box too far (integrators.cpp:287-289), and gets a position and a velocity which are those of none of its images (C58_lower_face_refuted).
* C59 (no merge): on sorted blocks, the only ones of a run, derefinement never happens on the default path (C59_sorted): get_split lists the octants with x fastest (AMRCell.hpp:59 asks "is this the correct order?") while AMRSortBlocks puts them in Morton order, where z is fastest.
* C59 (race, refuted): the merge flags are overwritten in place by work items that run while others read them (AMRGridRefinementHandler.cpp:108-120); eight siblings give one block under one schedule, eight under another (C59_race_refuted).
* C59 (merged cells, refuted): a merged block's cell (i,j,k) is the mean of the cells (i,j,k) of its eight blocks and not of the cells it covers (AMRGridRefinementHandler.cpp:605-613; C59_merge_refuted); totals are right, the field is not.
* C59 (overlap, refuted): two overlapping groups can both be merged and a region of space is lost (C59_overlap_refuted); it needs blocks which are not in the order of the octree.
* C59 (base grid, refuted): CellGenIterator ignores the lower corner of the domain, so with a corner other than zero the blocks are outside the domain given to the scheduler (C59_base_grid_refuted).
* C60 (ghosts, refuted): neighbours outside of the patch are skipped (AMRGridRefinementHandler.cpp:811, nid >= obj_cnt), so across patches, or through a periodic boundary, levels can differ by two after the change (C60_ghost_refuted).
* C60 (race, refuted): the merge flags are still overwritten in place while other work items read them (C60_race_refuted): whether siblings are merged depends on the schedule; the invariants of C60_balance hold for all schedules.
* C60 (guard): only the refine flag of the first block of a group is checked (AMRGridRefinementHandler.cpp:1014); that no split block is merged holds only thanks to the later 2:1 check, which sees its sibling as too fine; that no block of level 0 is merged holds only thanks to the unsigned level 0 - 1.
* C61 (overshoot, refuted): the clamped step dt = target - t, added back to t, can end one double past the target (C61_never_past_refuted): from 3 * 2^-53 to 1.5 + 2^-52 the call ends at 1.5 + 2^-51. Never from half the target on.
* C61 (undefined behaviour, refuted): the estimate of the steps left saturates at the largest i32, to which the number of the iteration is added (Solver.hpp:395-409): signed overflow for a generous max_walltime (10^12 s at 1 s per step, C61_walltime_ub_refuted).
* C61 (flags, refuted): reach_target_time is false when the last allowed iteration reaches the target (C61_flag_refuted), and niter_max = 0 still does one step (C61_zero_niter_refuted). Time steps too small to change the time loop for ever when there is no limit (C61_stall_refuted).
* Further ones are described next to the theorems (look-back scan with static group ids can deadlock; in-place use of
  the sycl scan races; merging without load balancing on several ranks).

## Wrong programs

`tools/mutate.py` applies a list of edits of model definitions to a scratch copy, rebuilds and reports which theorems
fail; results are in `seeded/LOG.jsonl`. Survivors are either equivalent programs (said in the log) or led to a
stronger theorem.
