# Formal model of MSTK: design

The code under study is `/repo` (MeshToolkit/MSTK, C). It was read as text; nothing
was built or run. The model is Gallina (Coq 8.16.1) under `rocq/theories`.

## Conventions

* **Pointers** are `Z`, `0` is NULL. Data and IDs are `Z`; lengths, positions and
  loop bounds are `nat`.
* **Outcomes**: `Base.result` has `Ok x`, `Fatal` (MSTK_Report with MSTK_FATAL ends
  the process), `Undef` (undefined behaviour: access outside an allocation, read of an
  uninitialised cell, NULL dereference, ...) and `OutOfFuel` (model artefact of a
  bounded `while`). A theorem that says a function returns `Ok ...` therefore also
  says it terminates and has no undefined behaviour.
* **Mutation** is modelled by returning the new state; a frame condition (what did not
  change) is part of the statements.
* Each source file has a `*Model.v` (definitions only, each citing file and lines),
  a `*Proofs.v` (lemmas), and a `*Props.v` (property theorems only, each followed by
  `Print Assumptions` and a concrete example).
* Theorem names: `Cnn_...`. A suffix `_partial` means that the English property is
  larger than the theorem. A suffix `_refuted` means that the English property is
  false of the code as written; the theorem gives the witness.

## Trusted base

* Coq's kernel (and `vm_compute`, used for examples, witnesses and finite tables).
* What `Print Assumptions` lists. All theorems named in `MANIFEST.json` are "Closed
  under the global context" except `C10_coor_order_separated`, `C30_volume_points`,
  `C30_surface_points`, `C55_weave_points`, `C55_weave_surface_points`, `C36_precision`, `C36_exact`, `C36_stable` and `C36_coordinates`. These speak about binary64 coordinates through Flocq and
  need the axioms of the standard library's real numbers:
  `ClassicalDedekindReals.sig_not_dec`, `ClassicalDedekindReals.sig_forall_dec`,
  `FunctionalExtensionality.functional_extensionality_dep` and
  `Classical_Prop.classic`. No axiom of our own, no library axiom beyond these.
* The transcription from C to Gallina. Which functions are modelled, and how they are
  simplified, is said in the comment on each definition and summarised below.
* The behaviour given to fprintf and fscanf (`FileModel.v`): the exact value of a double
  rounded to the printed decimals, ties to even; the double nearest to the decimals read.
* The semantics given to MPI (`CommModel.v`): messages between two ranks arrive in
  order; a send is buffered or waits for its receive, both are covered; collective
  calls complete when all ranks have entered them.
* Not modelled anywhere: malloc failure, memory leaks, output of MSTK_Report for
  MSTK_MESG, MSTK_WARN and MSTK_ERROR (they return), DEBUG-only code, thread
  interleavings inside a mutex-protected section, the suppression of repeated messages
  in MSTK_Report (a FATAL message equal to the previous message does not end the
  process; the model always ends).

## What is modelled

| Model | Source | Left out or simplified |
|---|---|---|
| `Base.v` | C arrays, `unsigned` and `int` words, memmove, memcpy, malloc, realloc | arrays hold initialised or uninitialised cells; access outside is `Undef` |
| `ListModel.v` | `util/List.c`, all functions used by callers | nothing but leaks |
| `HashModel.v` | `util/Hash.c`; hash links and locks of edges and faces | keys are compared as given |
| `SortModel.v`, `CompareModel.v` | `util/mstk_quicksort.c`, `misc/compare_funcs.c` | doubles are binary64 (Flocq) |
| `EntModel.v`, `MarkModel.v`, `AttModel.v`, `MSetModel.v` | `base/MEntity.c`, markers of `base/MSTK.c`, `base/MAttrib.c`, `base/MSet.c` | names of sets and attributes; attribute doubles are bit patterns |
| `MeshModel.v` | entity lists, IDs, lookup and counting in `base/Mesh.c`; create, delete and restore; sequential part of `hilev/MESH_Renumber.c` | ghost lists, attribute `vidrcm`; four textually parallel kinds are one definition |
| `TopoModel.v` | F1 representation: `base/MVertex_F1.c`, `MEdge_F1.c`, `MFace_F1.c`, `MRegion_F1.c` and the shared `*_FN*`/`*_F1F3*` files | entity-held lists are sequences (C01); jump tables resolved to F1; addresses never reused |
| `ModModel.v` | `mod/ME_Split.c`, `ME_MultiSplit.c`, `MF_Split_with_Edge.c`, `MVs_Merge_FN.c`, `MEs_Merge_FN.c`, `MFs_Merge_FN.c`, `MFs_Join.c` | coordinates; classification is read only |
| `CellModel.v`, `BuildModel.v` | templates of `MSTK_globals.h`; MR_Vertices, MR_Edges, MF_Set_Vertices, MR_Set_Vertices | classification of made entities |
| `ParModel.v` | parallel flags and receive counts of `base/Mesh.c`, `par/MESH_ParallelAdj.c` | MPI_Allgather as concatenation |
| `CommModel.v`, `ExchModel.v` | `par/MESH_Update1Attribute.c`, `MESH_UpdateVertexCoords.c`, `MESH_XchngEdgeFaceAttrib.c`, the communication pattern of `MESH_GathScat1Attribute.c` | sizes of buffers unbounded |
| `GidModel.v` | `par/MESH_AssignGlobalIDs.c`, `MESH_Renumber_GlobalIDs.c` | positions unbounded |
| `LabelModel.v` | `par/MESH_LabelPType.c` | none |
| `GraphModel.v`, `ElGraphModel.v` | `util/Graph_renumber.c`, `hilev/MESH_GetElementGraph.c` | overflow of counters |
| `GenModel.v` | `hilev/MESH_Gen_Structured.c` | coordinates, freeing |
| `CheckModel.v` | `hilev/MESH_CheckTopo.c` | messages |
| `FileModel.v` | `base/MESH_WriteToFile.c`, `base/MESH_InitFromFile.c` for F1; fprintf and fscanf of the C library as far as they are used | other representations, several processors; numbers with exponents in files |
| `SendModel.v` | `par/MESH_SendMesh.c`, `par/MESH_RecvMesh.c` and the `MESH_Send_*`, `MESH_Recv_*` they call, for F1; messages between the two processors are a queue | other representations; requests and MPI errors other than a message that is too long |
| `JoinModel.v` | `mod/MRs_Join.c` (`mod/MFs_Join.c` is in `ModModel.v`) | other representations; the test that both regions are in one mesh |
| `RefineModel.v` | `mod/ME_Swap2D.c`, `mod/MF_Split.c` | coordinates and classification of the new entities |
| `CollapseModel.v` | `mod/ME_Collapse.c` | sets of the mesh; a list with removed entries is a list with NULL in their places |
| `PartModel.v` | `par/MESH_Partition.c` (F1), `par/MESH_BuildPBoundary.c` | submeshes have address spaces of their own, so the lists Global2Local hold pairs of part and entity |
| `CopyModel.v` | `par/MESH_CopyAttr.c`, `par/MESH_CopySet.c`, the attributes in `par/MESH_Partition.c` 97-114, the loops in `par/MESH_Partition_and_Send.c` 203-217, 276-284 | sending; the blocks allocated for vectors |
| `GhostModel.v` | `par/MESH_AddGhost.c`, the loop of `par/MESH_Partition_and_Send.c` that calls it | temporary attributes are functions |
| `CloneModel.v` | `base/MESH_Copy.c` for meshes of type F1, built with MPI | the attribute `copyatt` is a function; reduced representations; IDs are not cut to 27 bits |
| `DistModel.v` | `par/MSTK_Mesh_Distribute.c` after the partitioning of the graph, `par/MESH_Partition_and_Send.c`, `par/MESH_BuildGhostList.c`, composed of the models above | with_attr = 1; the values of `Local2Global` and `Global2Local` (addresses); the sends to all ranks are one queue per rank |
| `ColModel.v` | `par/FixColumnPartitions.c`, `hilev/MF_Coords.c` | every floating point operation is rounded to binary64 (no extended precision, no fused operations); the message about cells that were not reached |
| `InteriorModel.v` | `hilev/MESH_DelInterior.c` on the deletions of `TopoModel.v` | the lists of the mesh are plain lists (their bookkeeping: C17, C18); lists of ghosts |
| `ExportModel.v` | `io/MESH_ExportToOFF.c`, `io/MESH_ExportToSTL.c`: the text written, character by character | failure of `fopen`; the missing `fclose` of the OFF exporter |
| `ConnModel.v` | `par/MESH_BuildConnection.c`; `par/MSTK_Weave_DistributedMeshes.c` 65-76 for meshes without given neighbours | freeing of the buffers; the unused position of the match and argument `topodim` |
| `MetisModel.v` | `par/MESH_PartitionWithMetis.c`, and `par/MESH_Get_Partitioning.c` for method 0 | METIS itself (a parameter: any function of what it is handed, which may fail); partitioning with Zoltan; lists leaked at line 77; overflow of int and idx_t |
| `FormatModel.v` | choice of the format in `io/MESH_ExportToFile.c` and `io/MESH_ImportFromFile.c` | the functions that are called (OFF, STL and MSTK's own: other models); messages |
| `QuadModel.v` | `hilev/MESH_Tri2Quad.c` | allocation of the new mesh (new vertices are named after the vertex, edge or face they are made for); coordinates; classification; the edges made by `MF_Set_Vertices`; temporary attributes and their removal |
| `HexModel.v` | `hilev/MESH_Tet2Hex.c` | allocation of the new mesh (new vertices are named after the vertex, edge, face or region they are made for); coordinates; classification; the faces and edges made by `MR_Set_Vertices` (C39 covers that function); temporary attributes and their removal |

Not modelled: the reduced representations R1, R2, R4 and F4; the calls of METIS and
Zoltan; adding ghost layers in parallel and weaving (`MESH_Parallel_AddGhost`,
`MESH_Weave*`); ExodusII, GMV, FLAG, X3D and DX input and output; geometry
(volumes, centroids); `MR_Split_with_EdgeLoop`, `ME_Split_SimplexMesh`.

## Plan per property

| Property | What is modelled | How it is proved |
|---|---|---|
| C01 | `List.c`, function by function, with raw array, packed counters, gaps and first-gap index | representation invariant; simulation by an abstract sequence; induction on the history |
| C02 | `List_Cat` | concatenation proved; later behaviour refuted with a witness, proved when the destination has gaps or the source has none |
| C03 | `List_Insert` | refuted with a witness (the test is inverted); what it does instead is proved |
| C04 | `List_Next_Entry` interleaved with mutators | invariant on (returned, remaining), induction on the schedule |
| C05 | reads and writes of the array are checked accesses | every operation returns `Ok` from the invariant |
| C06 | `List_RemSorted` | proved without gaps; refuted (non-termination, uninitialised flag) with gaps |
| C07, C08 | `Hash.c` with chains through next pointers as bucket lists | invariant: each entry in the bucket of its hash |
| C09 | `mstk_quicksort.c` on a checked array with optional key array | partition invariant, strong induction on range length |
| C10 | `compare_funcs.c` with C int wrap | order axioms; overflow and tolerance counterexamples |
| C11 | `MSTK_GetMarker`, `MSTK_FreeMarker` on a 32-bit word | invariant: bits above lastbit clear |
| C12, C13 | `MEntity.c` bit fields | bitwise reasoning over all values |
| C14 | per-entity attribute instance list | map refinement by induction |
| C15 | `MSet.c` with marks | set semantics, marks restored |
| C16 - C19 | entity lists, ID assignment, lookup, renumbering of `Mesh.c`, `MESH_Renumber.c` | invariants over histories |
| C20, C21 | par_adj_flags, par_recv_info; `MESH_Update_ParallelAdj` over all ranks | bit lemmas; explicit collective semantics |
| C22, C25 - C27 | F1 representation: vertex-edge-face-region incidence heap | mutual-incidence invariant |
| C23, C24 | face loops, direction bit mask | arithmetic modulo the loop length |
| C28, C29, C40 | `ME_Split`, `MF_Split_with_Edge`, merges, on the F1 heap | preservation of the incidence invariant and exact description of the new faces |
| C30 | `MESH_Renumber_GlobalIDs`, `MESH_AssignGlobalIDs_Vertex` over all ranks | prefix-sum arithmetic |
| C31, C32 | `MESH_Update1Attribute` over all ranks; blocking pairwise exchange as a transition system | data refinement; deadlock freedom by descent on partner ranks |
| C33 | `MESH_LabelPType` | set semantics |
| C34, C35 | `Graph_renumber.c` | queue invariant of breadth-first search |
| C36 | the characters written by `MESH_WriteToFile` and read by `MESH_InitFromFile` | both sides reduced to the list of words; copy invariant over the loops of the reader; rounding with Flocq |
| C37 | `MESH_Gen_Structured` | counting and index arithmetic |
| C38 | `MESH_CheckTopo` | checker soundness |
| C39 | element templates, `MR_Set_Vertices`, `MR_Vertices` | finite tables lifted to all vertex assignments |
| C41 | `MESH_GetElementGraph` | set semantics |
| C42 | the messages of `MESH_SendMesh` and their reading by `MESH_RecvMesh` | messages as flat lists of records; copy invariant over the loops of the receiver; structured meshes through C37 |
| C43 | `MFs_Join`, `MRs_Join` | sequences of calls of C22-C25 on the mesh; the loops are joined as paths; sums of signed uses of edges for closedness |
| C44 | `ME_Swap2D`, `MF_Split` | sequences of calls of C22-C25 on the mesh; invariant over the triangles made so far; signed uses of edges telescope around the new vertex |
| C45 | `ME_Collapse` | sequence of calls of C22-C26 and C40; invariant of the merging loop: edges and faces up to the pairs merged so far, and no pair left among the edges looked at; whether an edge is outside does not change during the loop |
| C46 | `MESH_Partition` | invariant of the loops over cells, faces, edges: the submesh is built by calls of C22-C26, the copies made so far are found again (one per part), what the lists name is what was made; closing the part under boundaries by induction on membership; masters by minimality of the part number |
| C47 | `MESH_BuildPBoundary` | the neighbours of a copy are mapped one to one to those neighbours of the original that are in the part (C46), so the numbers differ iff one is outside; loop invariants give the flagged set; induction on the chain from the entity to what it bounds |
| C48 | `MESH_CopyAttr`, `MESH_CopySet`, attributes and sets of `MESH_Partition_and_Send` | all values of one attribute in all submeshes are one function of part and entity; a loop over copies updates it at the copies, a copy belongs to one entity only, so the updates do not meet; invariant over the list of attributes; sets by the inductive relation `picked`; the links are those of C46 |
| C49 | `MESH_AddGhost` after `MESH_Partition` and `MESH_BuildPBoundary` | invariant `GB`: the submesh is a copy of a set of entities closed under boundaries; a step adds the cells at a list of vertices; the set after `n` layers is the inductive relation `within`; overlap is the same walk inwards from the flagged vertices; both walks meet because `touch` is symmetric |
| C50 | `MESH_Copy` into a new mesh | the invariant of receiving a mesh (C42) for the mesh with its IDs replaced by positions: entities created and filled so far; beside it, the IDs and the map to the copies; values of an attribute: the kinds before `n` are done |
| C51 | `distribute`, then `MESH_Build_GhostLists`, `MESH_Update_ParallelAdj` and an update or `MESH_XchngEdgeFaceAttrib` on all ranks | composition: C49 gives the submeshes, C42 and C50 carry them to the ranks (a halo stays a halo under an isomorphism), the global IDs identify originals, so the lists meet the hypotheses (`bshared`) of C31 and the history those of C32 |
| C52 | `FixColumnPartitions` | `ColSpec.v` defines columns by the face above and the face below each cell; invariant of the walk: marked cells are closed downwards and have the part of their top, others are as before; a face has at most two cells, so a cell is in one column; the number of unmarked cells bounds the walk |
| C53 | `MESH_DelInterior` | induction from the back of each list: the entries before are where they were; the sequence of deletions is an allowed history of `TopoSpec.v`, so the mesh is again a reachable one |
| C54 | `MESH_ExportToOFF`, `MESH_ExportToSTL` | readers of the formats in `ExportSpec.v`; the words of what is printed by induction over the lists (as C36), then the reader on these words |
| C55 | `MESH_BuildConnection` on all ranks | the gathered blocks and the search in them as for the global IDs (C30); invariant of the loops over vertices and ranks on the flags (C20); protocol of two gathers (C32); after `MESH_AssignGlobalIDs` by composing the protocols, with C30 for the IDs and PTypes |
| C56 | `MESH_PartitionWithMetis`, `MESH_Get_Partitioning` | the specification of the graph is that of C41; invariant of the loop over the cells on both arrays; room by counting pairs of cell and face: the pairs are distinct and each face is in at most two; the answer of METIS is copied |
| C57 | `MESH_ExportToFile`, `MESH_ImportFromFile` | induction on the name: what `strchr` finds; `strncmp` is the test for a prefix, or for equality where the length includes the final 0 |
| C58 | `MESH_Tri2Quad` | vertices and edges of a triangle from the same start (C23); the twelve sides of its three cells; distinct across triangles by the directions of the edges |
| C59 | `MESH_Tet2Hex` | vertices of a tetrahedron in standard order (C39); common edges and faces found and unique; the 24 faces of its four cells one by one; matched across faces by turning; two refutations: a region of six triangles is not refused |

The status of each property, with the exact scope of its theorems, is in
`MANIFEST.json`. Every `_partial` theorem has the full English statement and what is
missing in the comment above it.

## Findings (disagreements between code and property)

Each line marked with a theorem is proved of the model; the others were met while
reading and are excluded by the preconditions of the theorems.

**Lists and hash tables**
* `List_Insert` inserts before the first entry that is *not* `b4` (C03_list_insert_refuted).
* `List_Cat` copies the gap count wrongly: later removals go wrong, and after 12 calls a
  read outside the array (C02_list_cat_refuted, C05_list_memory_safe_refuted).
* `List_RemSorted` of an absent entry reads an uninitialised flag or does not end
  (C06_remsorted_absent_refuted).
* `Hash.c`: `Hash_Rem` is not implemented; the lock counter sticks at 15
  (C08_lock_balance_refuted); `Hash_ChknAdd` returns the entity instead of the table.

**Comparators**
* The int comparators subtract: wrong for far apart values (C10_int_order_refuted).
* The coordinate comparator with its tolerance is cyclic (C10_coor_order_refuted).

**Entities, attributes, sets**
* IDs wrap at 27 bits, other fields are truncated silently (C13_range_refuted).
* `MEnt_Clear_AttVal` of a vector copies from NULL (C14_clear_vector_refuted); setting a
  vector again leaks the old one.
* `MSets_Cat` compares the kind of the destination with itself (C15_cat_kinds_refuted).

**Entity lists of a mesh**
* A restored entity keeps its ID while lists stay flagged sorted: lookups miss live
  entities (C17_restored_refuted); deleting it has undefined behaviour
  (C18_delete_restored_refuted); restoring across a renumbering duplicates IDs
  (C16_restore_after_renumber_refuted).
* `MESH_Enable_LocalIDSearch` leaves NULL entries of an emptied kind (C17_emptied_refuted).
* Parallel flags are never cleared (C21_stale_refuted); `MESH_Set_Prtn` called again
  with more partitions keeps the old array.

**Incidence (F1)**
* Setting vertices, edges or faces a second time, or replacing an entity by itself,
  breaks the incidence (C22_*_refuted).
* `MF_Replace_Edges_i` with two or more edges fewer writes wrong directions
  (C24_replace_three_by_one_refuted); `MR_Replace_Faces` with fewer new faces loses
  sides (C25_replace_faces_fewer_refuted).
* `MR_Vertices`/`MR_Edges` skip the last face (C26_open_region_refuted) and are misled by
  edges that join two vertices of a cell from outside (C39_chord_refuted).
* `MR_Set_Vertices` does not keep the order when the base face exists
  (C39_same_order_refuted); `MVs_CommonFace` takes a face with the same vertices in
  another cyclic order (C39_other_loop_refuted).
* Direction bits: shifting by 31 or more is undefined, so faces have at most 32 edges.

**Modifications**
* `MF_Split_with_Edge` returns an existing edge without splitting
  (C29_existing_edge_not_split_refuted); `MEs_Merge` accepts a degenerate kept edge
  (C40_edges_degenerate_refuted); `MFs_Join` compares the classification of a face with
  itself.

**Parallel**
* Mixed given and missing global IDs, chains within the tolerance, vertices without
  edges, the boundary flag of edges on rank 0 (C30_*_refuted).
* `MESH_Renumber_GlobalIDs` hangs when some rank has no entity of a kind
  (C30_empty_rank_refuted).
* `MESH_Update1Attribute` does not propagate zero values and never updates vectors of one
  component (C31_zero_value_refuted, C31_one_component_refuted).
* `MESH_LabelPType` relabels ghost elements as overlap and is not idempotent
  (C33_ghost_element_refuted, C33_again_refuted).

**Graphs, generator, checker**
* `Graph_renumber.c` line 412 marks the wrong tag: heap overflow (C35_overflow_refuted);
  nodes without a number (C35_node_without_number_refuted); unconnected graphs read
  uninitialised memory (C34_unconnected_refuted).
* `MESH_GetElementGraph` passes the wrong pointer to realloc (C41_realloc_refuted) and
  uses IDs as positions (C41_gap_refuted).
* `MESH_Gen_Structured` with nx = 0 in 3D divides by zero (C37_no_columns_refuted).
* `MESH_CheckTopo` accepts open face loops, one-sided adjacency edge-face, face-region and,
  through a shared loop counter (line 332), vertex-edge; it exits or has undefined
  behaviour on some meshes it should report (C38_*_refuted).
* `MESH_InitFromFile` returns 0 for a file of a mesh without edges (C36_points_refuted) and
  stops on an attribute name with a space (C36_name_refuted); the printed precision is
  absolute, so small coordinates and attribute values are lost (C36_small_refuted).
* `MESH_SendMesh` sends messages that `MESH_RecvMesh` does not ask for when there are no
  faces (C42_wire_refuted); it uses IDs as positions (C42_gaps_refuted), has buffers for
  faces of 30 edges only (C42_polygon_refuted), reads vectors without value and frees the
  buffer of a pending message for empty sets (C42_vectors_refuted), loses the boundary
  flag of regions and values of attributes for all types (C42_lost_refuted), and the size
  of the buffer for regions overflows from 4161791 regions on (C42_large_refuted).
- `MFs_Join` compares the classification of the first face with itself, so faces of
  different model faces are joined; it does not look at the senses of the edge
  (C43_join_twisted_refuted), nor at other common edges (C43_join_two_edges_refuted) or
  other faces at the edge (C43_join_third_face_refuted); for faces of regions it depends
  on their order whether another face gets a wrong neighbour (C43_join_in_region_refuted).
  `MRs_Join` leaves a second common face in the region twice (C43_join_two_faces_refuted).
- `ME_Swap2D` does not test whether the two vertices are joined already
  (C44_swap_joined_refuted), whether the faces have regions (C44_swap_in_region_refuted)
  or use the edge in opposite senses (C44_swap_sense_refuted); an edge without faces makes
  it read through NULL (C44_swap_no_face_refuted).  `MF_Split` has arrays of 30 entries for
  faces of up to 32 edges (C44_split_large_refuted) and finds edges by their ends
  (C44_split_twin_refuted).
- `ME_Collapse` deletes the vertex it is told to keep when both ends lie on one model
  entity and that vertex has the larger global ID; the comment says that the lower ID is
  deleted, the code keeps it (C45_keep_refuted).  The test for a face with one region sets
  `vdel_external` to 0, so a corner goes and a vertex inside stays (C45_boundary_refuted).
  Unclassified edges that lost their last face are asked for it (C45_unclassified_refuted).
  The return value of `MEs_Merge` is not looked at (C45_refused_merge_refuted).
- C46: `MESH_Partition` takes a master partition of 0 as "not met yet".  On a mesh that was
  partitioned before, the numbers of the first time are used: a copy gets a master that has no
  copy of it (C46_again_refuted).  Numbering starts at 1 even if some global IDs are set
  (C46_ids_refuted).  An entity outside all parts gets partition 0 - 1 in 29 bits
  (C46_unused_refuted).  A face with more than 30 edges overruns `lfedges` (C46_large_refuted).
- C47: an edge without faces (or a face without regions) next to a cell is in no part, and
  its ends are flagged as boundary between parts even if there is one part only
  (C47_dangling_refuted).
- C48: `MESH_CopyAttr` copies vectors without asking whether there is one: a vector
  attribute without a value on an entity that is in a part is a memcpy from NULL
  (C48_novalue_refuted).  `MESH_Partition` calls `MAttrib_New` without the number of
  components if it is 1, but `MAttrib_New` reads it for vectors (C48_vector1_refuted).
  A set with an entry that is in no part makes `MESH_CopySet` read a NULL list
  (C48_unused_refuted).
- C49: a part without cells stops the program when layers are wanted
  (`MESH_AddGhost.c` 72-73, C49_empty_refuted).  A dangling edge makes cells overlap
  although no other part has them (C49_dangling_refuted).  By reading only:
  `MESH_Surf_AddGhost_FN` creates `lvidatt` on the mesh and `gvidatt` on the submesh but
  sets values of `lvidatt` on vertices of the submesh; deleting the attribute then
  leaves the instances with a pointer to it.  `MESH_Partition_and_Send` deletes
  `submeshes[n]` for every n but 0, also if the rank of the process is not 0.
- C50: `MESH_Copy` leaves out an attribute of the user that is called copyatt
  (C50_name_refuted) and overruns its arrays for a face with 31 or 32 edges, which
  `MF_Set_Edges` accepts (C50_polygon_refuted).  The flag of a region on a partition
  boundary is not copied.  By reading only: 177 tests `!= R1 || != R2`, which is
  always true, so meshes of type R1 and R2 are copied by `MR_Faces`.
- C51: the last sentence is false: although no attributes are wanted, rank 0 has the
  names `Local2Global`, `Global2Local` and those of the attributes of the mesh
  afterwards, the other ranks have none (C51_attributes_refuted).
  `MESH_Partition.c` 101-114 declares them regardless of `with_attr` and
  `MESH_Partition_and_Send.c` 346 copies the submesh with all its attributes.
- C52: the last sentence is false.  Tolerances are absolute: a mesh of columns whose
  lengths are multiplied by 2^-22 is refused (C52_scale_refuted), since every face has an
  area below 1e-12 and counts as a side.  A part that had only lower cells of columns
  has no cells afterwards (C52_parts_refuted).
- C53: the last sentence is false.  `MV_Delete`, `ME_Delete`, `MF_Delete` and `MR_Delete`
  do not take entities out of sets, so the sets have freed entities afterwards
  (C53_sets_refuted).  An edge classified inside that bounds a face that stays is freed
  while the face still has it (C53_classification_refuted).
- C54: neither file is a file of its format.  `MESH_ExportToOFF` writes the IDs of the vertices,
  which start at 1, where OFF counts from 0; whenever the last vertex is on a face, the file
  names a point it does not have (C54_off_numbers for all such meshes, C54_off_refuted).  Read
  with numbers from 1 the file is the mesh (C54_off).  `MESH_ExportToSTL` writes nothing after
  "endloop" and "endfacet", so that they and the next word are one; a file with a facet has no
  word "endsolid" (C54_stl_words for all such meshes, C54_stl_refuted).  But for blanks the
  file is the mesh (C54_stl).  `MESH_ExportToSTL` opens the file before it looks at the mesh, and a
  refused export leaves it empty (C54_refused, C54_emptied_refuted).
- C55: `MESH_BuildConnection` decides by vertices only.  Ranks that have just one vertex in common
  are flagged as having ghost edges and faces from each other, which they cannot have
  (C55_edges_refuted).  Whether faces are flagged depends on the rank's own part having regions:
  where one of two neighbours has none, only the other flags (C55_mutual_refuted).
  Right after `MESH_AssignGlobalIDs`, as `MSTK_Weave_DistributedMeshes` calls it, the ranks flagged
  are those with a vertex at the same place or with the same given ID (C55_weave_points,
  C55_weave_ids, C55_weave_surface_points, C55_weave_surface_ids), if the meshes have no table of
  flags yet.  `MESH_Set_Prtn` keeps an old table whatever its length; meshes woven among fewer ranks
  before are written to behind its end (C55_weave_again_refuted).
- C56: `MESH_PartitionWithMetis` has room for two neighbours at every edge of a surface mesh.  An
  edge with k faces takes k(k-1): the seven triangles of two tetrahedra that share a face take 30
  entries of 18, and the array is overrun (C56_surface_refuted; C56_surface_room says exactly
  when).  IDs with gaps make METIS read outside its graph (C56_ids_refuted).  The status METIS
  returns is dropped, and after a failure parts that were never written are copied
  (C56_failure_refuted).
- C57: the extension is taken to start at the first dot (the second, if the name starts with one), so
  `../cube.mstk`, `run.d/cube.mstk` and `cube-1.2.mstk` are refused in both directions
  (C57_names_refuted).  X3D is read by extension and not written by it, and format `exo` is
  written and not read (C57_both_refuted).  A format of 16 characters or more overruns the buffer it
  is copied to (C57_overflow_refuted).
- C58: when a mesh is refused, `MESH_Tri2Quad` returns without removing the attributes it put on the
  mesh of triangles (lines 100-103; seen in the source, not modelled).
- C59: `MESH_Tet2Hex` tests only that faces are triangles. A region of triangles with more than four
  vertices uses an edge or face that was not found, or writes past `ptr_v_regn[15]`
  (`C59_tetrahedra_refuted`, `C59_overflow_refuted`). As in C58 a refused mesh keeps the temporary attributes.
