{
 "claims": [
  {
   "property": "C01",
   "status": "proved",
   "theorems": [
    "C01_list_history",
    "C01_remi_raw"
   ],
   "note": "Refinement of List.c to sequences for every history of fewer than 2^27 allowed calls."
  },
  {
   "property": "C02",
   "status": "partial",
   "theorems": [
    "C02_list_cat_partial",
    "C02_list_cat_refuted"
   ],
   "note": "Concatenation shown by all queries always; later histories unless dest has no gaps and src has gaps, where the claim is false (rem1 bookkeeping)."
  },
  {
   "property": "C03",
   "status": "partial",
   "theorems": [
    "C03_list_insert_refuted",
    "C03_list_insert_absent_refuted",
    "C03_list_insert_partial"
   ],
   "note": "The claim is false: List_Insert inserts before the first entry different from b4. Proved: append for NULL, exact behaviour on lists without gaps."
  },
  {
   "property": "C04",
   "status": "proved",
   "theorems": [
    "C04_walk_exact",
    "C04_walk_complete"
   ],
   "note": "Exact refinement of interleaved walks and its consequence at the end of the walk."
  },
  {
   "property": "C05",
   "status": "partial",
   "theorems": [
    "C05_list_memory_safe_partial",
    "C05_list_memory_safe_refuted"
   ],
   "note": "No fault for any number of lists and any allowed history, if List_Cat never gets a source with gaps for a destination without; without that condition a 12-call history leads to an out-of-bounds read."
  },
  {
   "property": "C06",
   "status": "partial",
   "theorems": [
    "C06_remsorted_partial",
    "C06_remsorted_absent_refuted"
   ],
   "note": "Full for present entries; for absent keys the claim is false (non-termination, uninitialised read)."
  },
  {
   "property": "C07",
   "status": "proved",
   "theorems": [
    "C07_hash_history"
   ],
   "note": "Interning-table behaviour for every history of fewer than 2^25 calls, including re-hashing and automatic removal. Keys are compared as given (the caller sorts them)."
  },
  {
   "property": "C08",
   "status": "proved",
   "theorems": [
    "C08_hash_entries_remove",
    "C08_lock_count",
    "C08_lock_word",
    "C08_lock_balance_refuted"
   ],
   "note": "Enumeration and Hash_Remove_Unused after any such history; lock counts are exact up to 14 outstanding locks and stick at 15 (refuted beyond)."
  },
  {
   "property": "C09",
   "status": "proved",
   "theorems": [
    "C09_quicksort",
    "C09_quicksort_empty"
   ],
   "note": "Permutation and sortedness by key for any range; memory before and after the range is arbitrary, unread and unchanged."
  },
  {
   "property": "C10",
   "status": "partial",
   "theorems": [
    "C10_coor_order_separated",
    "C10_int_order_partial",
    "C10_int_order_refuted",
    "C10_attribute_order",
    "C10_edge_order",
    "C10_edgeID_order",
    "C10_face_order",
    "C10_faceID_order",
    "C10_coor_antisymmetric_partial",
    "C10_coor_order_refuted",
    "C10_coor_equal_refuted"
   ],
   "note": "Edge, face, ID, global ID and valence comparators are total preorders (vertex-set comparators: zero exactly for equal vertex sets). The int comparator only when differences fit in an int (refuted otherwise). The coordinate comparator is antisymmetric in sign but its tolerance makes it cyclic: refuted by witness."
  },
  {
   "property": "C11",
   "status": "proved",
   "theorems": [
    "C11_markers"
   ],
   "note": "All histories of MSTK_GetMarker/MSTK_FreeMarker, whatever the out-of-range pow conversion yields."
  },
  {
   "property": "C12",
   "status": "proved",
   "theorems": [
    "C12_marks"
   ],
   "note": "All histories of MEnt_Mark/MEnt_Unmark/List_Mark/List_Unmark."
  },
  {
   "property": "C13",
   "status": "proved",
   "theorems": [
    "C13_fields",
    "C13_range_refuted"
   ],
   "note": "Every history of setters with values that fit their fields, with the packing into words made explicit; values that do not fit are truncated (refuted part)."
  },
  {
   "property": "C14",
   "status": "proved",
   "theorems": [
    "C14_attributes",
    "C14_clear_vector_refuted"
   ],
   "note": "Every history of set, copy, remove, clear, remove-all and caller writes; clearing an attached vector or tensor copies from NULL and is outside (refuted)."
  },
  {
   "property": "C15",
   "status": "proved",
   "theorems": [
    "C15_union",
    "C15_intersect",
    "C15_subtract",
    "C15_cat_kinds_refuted"
   ],
   "note": "On the full list, marker and mark models; duplicates are absent when the operands have none; an empty intersection or difference is NULL. Assumes the users' convention that free markers are not set on entities. MSets_Cat accepting different kinds is recorded as refuted."
  },
  {
   "property": "C16",
   "status": "proved",
   "theorems": [
    "C16_unique",
    "C16_stable",
    "C16_restore_after_renumber_refuted"
   ],
   "note": "Every history of create, delete (keep or not), restore, sort and renumber, on the full list and bit-field models. Restoring across a renumbering is excluded: there IDs do collide (refuted part)."
  },
  {
   "property": "C17",
   "status": "partial",
   "theorems": [
    "C17_lookup_partial",
    "C17_restored_refuted",
    "C17_emptied_refuted"
   ],
   "note": "Exact for every history in which nothing is restored while the lists are flagged sorted and MESH_Enable_LocalIDSearch is not called after a kind was emptied by deletions; both exclusions are necessary (witnesses)."
  },
  {
   "property": "C18",
   "status": "partial",
   "theorems": [
    "C18_counts",
    "C18_completes_partial",
    "C18_delete_restored_refuted"
   ],
   "note": "Counts and iteration are right after every history that completes; histories complete if deletions happen while the list is in ID order. Deleting a restored entity has undefined behaviour in List_RemSorted (refuted)."
  },
  {
   "property": "C19",
   "status": "proved",
   "theorems": [
    "C19_renumber"
   ],
   "note": "Every reachable mesh, every requested kind."
  },
  {
   "property": "C20",
   "status": "proved",
   "theorems": [
    "C20_history",
    "C20_independent"
   ],
   "note": "Every history of flagging, set-up and count calls on a mesh set up with MESH_Set_Prtn. Out of range partitions are excluded (the code indexes without a check). The own partition is skipped only by the ghost flag function."
  },
  {
   "property": "C21",
   "status": "proved",
   "theorems": [
    "C21_symmetric",
    "C21_stale_refuted"
   ],
   "note": "Any number of ranks and any sequence of updates; MPI_Allgather is modelled as concatenation in rank order. C21_stale_refuted: flags are never cleared, so after a further update a rank may still report ghosts it no longer has."
  },
  {
   "property": "C22",
   "status": "proved",
   "theorems": [
    "C22_incidence_mutual",
    "C22_replace_vertex_by_itself_refuted",
    "C22_set_vertex_again_refuted",
    "C22_set_edges_again_refuted",
    "C22_set_faces_again_refuted",
    "C22_replace_face_by_itself_refuted"
   ],
   "note": "Full representation F1, every history of the 21 creating, connecting, replacing, deleting and restoring calls whose arguments meet tpre (stated over an abstract mesh). The refuted theorems show calls outside tpre that break the incidence: setting vertices, edges or faces a second time and replacing an entity by itself."
  },
  {
   "property": "C23",
   "status": "proved",
   "theorems": [
    "C23_face_loop",
    "C23_directions_reversed",
    "C23_uses_vertex"
   ],
   "note": "Every face of every reachable F1 mesh whose edges form a closed loop, any start vertex, both directions; faces have at most 32 edges because the code shifts an int by the edge number (undefined beyond)."
  },
  {
   "property": "C24",
   "status": "partial",
   "theorems": [
    "C24_replace_edges",
    "C24_replace_three_by_one_refuted"
   ],
   "note": "Proved for runs replaced by as many edges, by more edges (run not wrapping past the end of the list) and by one edge fewer. False of the code when two or more edges fewer are inserted (C24_replace_three_by_one_refuted); a wrapping run with more new edges reads outside the list."
  },
  {
   "property": "C25",
   "status": "partial",
   "theorems": [
    "C25_other_faces_kept",
    "C25_replace_faces_fewer_refuted"
   ],
   "note": "Proved for MR_Set_Faces, MR_Rem_Face, MR_Replace_Face_i, MR_Set_FaceDir and MR_Replace_Faces with at least as many new faces as old ones; false of the code with fewer new faces (C25_replace_faces_fewer_refuted)."
  },
  {
   "property": "C26",
   "status": "partial",
   "theorems": [
    "C26_vertex_edges",
    "C26_edge_faces",
    "C26_vertex_faces",
    "C26_edge_regions",
    "C26_vertex_regions",
    "C26_face_regions",
    "C26_region_neighbours",
    "C26_vertex_neighbours",
    "C26_face_neighbours",
    "C26_region_uses_edge",
    "C26_region_uses_vertex",
    "C26_region_edges_poly",
    "C26_region_vertices_poly",
    "C39_region_vertices",
    "C39_region_edges",
    "C26_open_region_refuted",
    "C39_chord_refuted"
   ],
   "note": "Exact and duplicate free for every reachable F1 mesh; the queries use no markers, so marks are untouched. MR_Edges and MR_Vertices are proved for the general branch (any polyhedron) and for the branches for tetrahedra, pyramids, prisms and hexahedra (C39_region_vertices, C39_region_edges; any order, directions and starting vertices of the faces). Prism vertices and all cell edges need that no edge outside the cell joins two of its vertices; without that the claim is false (C39_chord_refuted). On regions without a closed surface the general branch misses entities (refuted)."
  },
  {
   "property": "C27",
   "status": "proved",
   "theorems": [
    "C27_vertex_delete_restore",
    "C27_edge_delete_restore",
    "C27_face_delete_restore",
    "C27_region_delete_restore"
   ],
   "note": "Every reachable F1 mesh and every deletable entity with a complete lower boundary. Live counts are the subject of C18_counts."
  },
  {
   "property": "C28",
   "status": "proved",
   "theorems": [
    "C28_multisplit",
    "C28_split"
   ],
   "note": "Every reachable F1 mesh, every edge with two different ends, any number of faces whose edge lists still fit the 32 direction bits of the code after the split. ME_MultiSplit (any number of new vertices) is the general statement, ME_Split the instance."
  },
  {
   "property": "C29",
   "status": "partial",
   "theorems": [
    "C29_split_face",
    "C29_existing_edge_not_split_refuted"
   ],
   "note": "Proved for every face of a reachable F1 mesh with a closed simple loop and two of its vertices that no edge joins yet. When an edge joins the two vertices already the code returns it without splitting the face (refuted)."
  },
  {
   "property": "C30",
   "status": "proved",
   "theorems": [
    "C30_renumber",
    "C30_empty_rank_refuted",
    "C30_volume_points",
    "C30_volume_ids",
    "C30_surface_points",
    "C30_surface_ids",
    "C30_mixed_refuted",
    "C30_tolerance_refuted",
    "C30_edge_flag_refuted",
    "C30_isolated_vertex_refuted"
   ],
   "note": "MESH_AssignGlobalIDs over any number of ranks, surface and volume meshes, vertices matched by coordinates or by given IDs: copies of one vertex, edge or face get one ID, different ones different IDs, the elements get consecutive blocks, one copy is the owner and the others are its ghosts.  The coordinate theorems use the axioms of the real numbers of the standard library (Flocq).  Refuted: mixing given and missing IDs, chains within the tolerance, the boundary flag on rank 0, vertices without edges.  MESH_Renumber_GlobalIDs: the owned entities of each kind get 1,2,... without gap, in blocks of consecutive numbers by rank in the order of the list of the rank; every ghost gets the number of its owner, the ghost and overlap lists are sorted again and the mesh stays ready for exchanges; it ends under every schedule if all or none of the ranks have entities of a kind, otherwise it does not (refuted)."
  },
  {
   "property": "C31",
   "status": "partial",
   "theorems": [
    "C31_update_attribute_partial",
    "C31_update_coordinates",
    "C31_exchange_boundary",
    "C31_zero_value_refuted",
    "C31_one_component_refuted"
   ],
   "note": "MESH_Update1Attribute, MESH_UpdateVertexCoords and MESH_XchngEdgeFaceAttrib over any number of ranks, all schedules. Vertex coordinates as stated. Attribute values reach the ghosts unless they are zero or vectors of one component: these are never set, so the full statement is refuted."
  },
  {
   "property": "C32",
   "status": "proved",
   "theorems": [
    "C32_exchange",
    "C32_update_attribute",
    "C32_update_coordinates",
    "C32_exchange_boundary",
    "never_stuck_ends"
   ],
   "note": "All ranks and schedules, sends buffered or synchronous; executions are bounded, never stuck and end with no message left and fixed results."
  },
  {
   "property": "C33",
   "status": "proved",
   "theorems": [
    "C33_face_labels",
    "C33_region_labels",
    "C33_face_closed",
    "C33_region_closed",
    "C33_ghost_element_refuted",
    "C33_again_refuted"
   ],
   "note": "MESH_LabelPType, both dimensions, any initial labels and any list of elements: all labels afterwards are given exactly; vertices, edges and faces of POVERLAP elements are POVERLAP or PGHOST; ghosts below the element level are kept; labels that were closed under taking sub-entities stay closed.  Volume meshes: for regions whose vertices and edges the queries find (standard cells without chords, or polyhedra whose last face shares its edges).  Refuted: an element labelled PGHOST keeps its label; a second call changes nothing."
  },
  {
   "property": "C34",
   "status": "proved",
   "theorems": [
    "C34_level_structure",
    "C34_unconnected_refuted"
   ],
   "note": "All connected graphs, all roots, arbitrary contents of the work arrays. On a graph that is not connected the routine reads uninitialised memory before its own check (refuted)."
  },
  {
   "property": "C35",
   "status": "partial",
   "theorems": [
    "C35_extremal_nodes",
    "C35_permutation_partial",
    "C35_numbers_partial",
    "C35_node_without_number_refuted",
    "C35_overflow_refuted"
   ],
   "note": "The statement is false of the code: a node may get no number, and the array of a connected set overflows because line 412 marks the wrong tag. Proved: the extremal nodes found are mutually at greatest distance; the numbering is a permutation (and the width right) when every node lies on a shortest walk between them; in every finished run the numbers given are 0..k-1, once each, to exactly the nodes reached by non-descending walks."
  },
  {
   "property": "C36",
   "status": "partial",
   "theorems": [
    "C36_round_trip_partial",
    "C36_precision",
    "C36_exact",
    "C36_stable",
    "C36_coordinates",
    "C36_points_refuted",
    "C36_name_refuted",
    "C36_small_refuted"
   ],
   "note": "F1 meshes on one processor whose lists hold exactly the live entities, with an edge, all edges, faces and regions set, names of attributes being one word: the file written by MESH_WriteToFile, character by character, read by MESH_InitFromFile gives a mesh with the same entities in the same order, ends, loops and faces with directions, classification, numbers, and attributes (those with a value). Doubles come back within 10^-16 (coordinates) or 10^-6 (attributes), exactly from 1/2 or 2^33 on, and do not change a second time. printf and scanf of the C library are modelled as correctly rounded. Refuted: meshes without edges (reading returns 0), names with a space (reading stops the program), small differences (points coincide, values become zero)."
  },
  {
   "property": "C37",
   "status": "proved",
   "theorems": [
    "C37_volume",
    "C37_volume_queries",
    "C37_volume_shared",
    "C37_surface",
    "C37_surface_shared",
    "C37_no_columns_refuted"
   ],
   "note": "MESH_Gen_Structured for every nx, ny, nz >= 1 in 3D and nx, ny >= 1 in 2D: the vertices, edges, faces and regions are in one-to-one correspondence with those of the grid (so the counts are right), every edge joins neighbouring grid points, every face goes around its square, every cell is the hexahedron on its 8 corners and the neighbours share the face or edge between them; every entity is classified on the smallest model entity of the cube or square around it.  Coordinates, freeing of memory and overflow of the int counters are not modelled.  Refuted: nx = 0 in 3D divides by zero."
  },
  {
   "property": "C38",
   "status": "partial",
   "theorems": [
    "C38_accepted_partial",
    "C38_library_meshes",
    "C38_face_loop_refuted",
    "C38_edge_face_refuted",
    "C38_face_region_refuted",
    "C38_second_vertex_refuted",
    "C38_open_region_refuted",
    "C38_flipped_refuted"
   ],
   "note": "False as stated. Proved for all meshes: what acceptance by MESH_CheckTopo does imply (downward adjacency is answered upward, with one exception; regions on the right side of their faces; faces of a region matched edge by edge in opposite directions; consistent classification). For meshes reached through the library without vertices and edges on model faces acceptance is equivalent to consistent classification and oriented closed regions. Refuted by witnesses: face loops, faces known to edges, regions known to faces, second vertex of boundary edges, meshes on which the checker exits or has undefined behaviour."
  },
  {
   "property": "C39",
   "status": "partial",
   "theorems": [
    "C39_templates",
    "C39_type_stored",
    "C39_region_vertices",
    "C39_region_edges",
    "C39_chord_refuted",
    "C39_face_from_vertices",
    "C39_build",
    "C39_same_order",
    "C39_build_vertices",
    "C39_same_order_refuted",
    "C39_build_polyhedron",
    "C39_other_loop_refuted"
   ],
   "note": "The templates describe closed surfaces and agree with each other. Building a region from its vertices gives the standard cell on them, whatever edges and faces between them exist; the vertices come back in the same order if the base face did not exist before (and, for prisms, no other edges join them), otherwise in an order in which they form the same cell. That the order is always kept is refuted: with an existing base face the list starts at another vertex. Polyhedra built from face loops are proved under the condition that an existing face with the same vertices has the same loop; without it refuted."
  },
  {
   "property": "C40",
   "status": "partial",
   "theorems": [
    "C40_vertices",
    "C40_vertices_refused",
    "C40_edges",
    "C40_edges_refused",
    "C40_faces",
    "C40_edges_degenerate_refuted"
   ],
   "note": "Proved for all reachable F1 meshes and mergeable pairs; entities that have both of a pair (an edge (v2,v2), a face with both edges, a region with both faces or with the kept face on that side already) are excluded. The end test of MEs_Merge accepts an edge from a vertex to itself as the kept edge (refuted)."
  },
  {
   "property": "C41",
   "status": "partial",
   "theorems": [
    "C41_region_graph",
    "C41_face_graph",
    "C41_symmetric",
    "C41_realloc_refuted",
    "C41_gap_refuted"
   ],
   "note": "Proved for all reachable F1 meshes: meshes of faces as stated; meshes of regions exactly as long as the entries fit the first allocation (4 per region), beyond it the code writes outside the array (refuted). With ID gaps entries are not positions in the arrays (refuted)."
  },
  {
   "property": "C42",
   "status": "partial",
   "theorems": [
    "C42_send_partial",
    "C42_grids",
    "C42_lost_refuted",
    "C42_gaps_refuted",
    "C42_wire_refuted",
    "C42_polygon_refuted",
    "C42_vectors_refuted",
    "C42_large_refuted"
   ],
   "note": "F1 meshes whose lists hold exactly the live entities, numbered 1, 2, ... in this order, complete, with edges and faces, faces of at most 30 edges, and buffer sizes within int: the messages of MESH_SendMesh, followed by any others, make MESH_RecvMesh build a copy and take exactly these messages. In particular every structured mesh of at most 4161790 cells (C42_grids). Refuted: values of attributes for all types and the boundary flag of regions are lost; IDs with gaps; meshes without faces (the pairing of messages is wrong); faces of 31 or 32 edges; vectors without a value or with one component, and empty sets; more than 4161790 regions (the structured mesh of 162 cells along each side is sent and never received). Messages between two processors are taken as a queue."
  },
  {
   "property": "C43",
   "status": "partial",
   "theorems": [
    "C43_join_faces",
    "C43_split_join",
    "C43_join_regions",
    "C43_join_regions_refused",
    "C43_join_faces_refused",
    "C43_join_in_region_refuted",
    "C43_join_twisted_refuted",
    "C43_join_two_edges_refuted",
    "C43_join_third_face_refuted",
    "C43_join_two_faces_refuted"
   ],
   "note": "Faces of surfaces (without regions) with one common edge used in opposite senses by them alone: one face with the closed loop of both, all else kept; splitting and joining gives the loop back. Regions with one common face, given or not: the first region has the faces of both, all else kept, closed if both were. Refusals leave the mesh as it is. Refuted: faces of regions (the side of another face is overwritten, depending on the order of the two faces), faces with the same sense of the edge (loop not closed), two common edges (one twice in the face), a third face at the edge (dangling pointer), regions with two common faces (one twice in the region)."
  },
  {
   "property": "C44",
   "status": "partial",
   "theorems": [
    "C44_swap",
    "C44_swap_back",
    "C44_swap_refused",
    "C44_split",
    "C44_swap_joined_refuted",
    "C44_swap_in_region_refuted",
    "C44_swap_sense_refuted",
    "C44_swap_no_face_refuted",
    "C44_split_large_refuted",
    "C44_split_twin_refuted"
   ],
   "note": "ME_Swap2D on an edge of two triangles outside regions that use it in opposite senses: two triangles at the other diagonal with the orientation of the surface, all else kept; a second swap gives the first triangles back; other numbers of faces, other faces or edges of the boundary change nothing. MF_Split on any face whose loop has 3 to 30 different vertices, in a mesh where no second edge joins two neighbouring corners: one triangle per edge around a new vertex, orientations kept, the regions of the face get the triangles and stay closed, all else kept. Refuted: the swap makes a second edge between joined vertices; faces of regions (freed faces stay in the region); triangles with the same sense and edges without faces (undefined behaviour); faces of 31 edges (array overflow); a second edge takes the place of the edge of the face."
  },
  {
   "property": "C45",
   "status": "partial",
   "theorems": [
    "C45_collapse",
    "C45_choice",
    "C45_choice_asked",
    "C45_choice_rim",
    "C45_keep_refuted",
    "C45_unclassified_refuted",
    "C45_refused_merge_refuted",
    "C45_boundary_refuted"
   ],
   "note": "ME_Collapse on a surface (the faces at the edge are triangles without regions, no two edges join the same vertices, a face with both ends has the edge, no two other faces come to lie on each other; regions elsewhere are kept): result, deleted entities and merged pairs are exact, every other face keeps its loop with the kept vertex for the deleted one, no two edges join the same vertices afterwards, all else kept; which vertex is kept, with and without the model. Missing: edges of regions and faces with more sides. Refuted: the vertex that must be preserved is deleted when its global ID is larger; unclassified edges whose last face is gone (undefined behaviour); pairs whose merge is refused are reported as merged; with no preference a corner is deleted in favour of a vertex inside."
  },
  {
   "property": "C46",
   "status": "proved",
   "theorems": [
    "C46_partition",
    "C46_again_refuted",
    "C46_ids_refuted",
    "C46_unused_refuted",
    "C46_large_refuted"
   ],
   "note": "MESH_Partition (representation F1) for surface and volume meshes, any number of parts below 2^29 and any part array: submeshes, lists of copies, masters and global IDs are exact. Outside the quantifier, refuted: a second partition of the same mesh gives masters without a copy; global IDs set for some entities only are given twice; entities in no part get partition 2^29 - 1; a face of 31 edges is undefined behaviour."
  },
  {
   "property": "C47",
   "status": "proved",
   "theorems": [
    "C47_boundary",
    "C47_shared",
    "C47_dangling_refuted"
   ],
   "note": "MESH_BuildPBoundary on every submesh of MESH_Partition, surfaces and volumes: flagged is exactly what bounds something outside the part (C47_boundary); without dangling entities exactly what another part has too (C47_shared). With dangling edges the second form is refuted."
  },
  {
   "property": "C48",
   "status": "proved",
   "theorems": [
    "C48_partition",
    "C48_attr",
    "C48_set",
    "C48_novalue_refuted",
    "C48_vector1_refuted",
    "C48_unused_refuted"
   ],
   "note": "MESH_CopyAttr and MESH_CopySet for any links that are exact (C48_attr, C48_set), and composed with MESH_Partition for all attributes and sets (C48_partition). Outside the quantifier, refuted: vectors without a value, vectors of one component, set entries in no part."
  },
  {
   "property": "C49",
   "status": "proved",
   "theorems": [
    "C49_ghosts",
    "C49_exchange",
    "C49_neighbours",
    "C49_empty_refuted",
    "C49_dangling_refuted"
   ],
   "note": "MESH_AddGhost composed with MESH_Partition and MESH_BuildPBoundary, surfaces and volumes, any number of layers. Outside the quantifier, refuted: parts without cells, types with dangling edges."
  },
  {
   "property": "C50",
   "status": "proved",
   "theorems": [
    "C50_copy",
    "C50_name_refuted",
    "C50_polygon_refuted"
   ],
   "note": "MESH_Copy into a new mesh, all entities, parallel data, attributes and sets. Outside the quantifier, refuted: an attribute called copyatt, faces with more than 30 edges. Not covered: meshes without edges or faces, reduced representations, a destination that is not empty."
  },
  {
   "property": "C51",
   "status": "partial",
   "theorems": [
    "C51_distribute",
    "C51_lists",
    "C51_adjacency",
    "C51_master",
    "C51_update",
    "C51_coordinates",
    "C51_boundary",
    "C51_attributes",
    "C51_attributes_refuted"
   ],
   "note": "MSTK_Mesh_Distribute for a given partition, composed of partition, ghosts, copy, send and receive, lists and the first exchange, then MESH_Update1Attribute, MESH_UpdateVertexCoords or MESH_XchngEdgeFaceAttrib: meshes, global IDs, lists, neighbours and values are exact for all meshes, partitions and interleavings. False: the ranks do not have the same attributes afterwards (C51_attributes_refuted; what they have: C51_attributes). Values lost in an update are those of C31. Not covered: with_attr = 1, a mesh without edges or faces, a single rank."
  },
  {
   "property": "C52",
   "status": "partial",
   "theorems": [
    "C52_columns",
    "C52_columnar",
    "C52_ends",
    "C52_facing",
    "C52_scale_refuted",
    "C52_parts_refuted"
   ],
   "note": "FixColumnPartitions with its helpers: parts after the change are exactly those of the tops of the columns, for all meshes and coordinates; in meshes of columns it succeeds and cuts no column; it always ends without undefined behaviour. Which face is above and which below is what UpDownFaces computes, tied to the coordinates by C52_facing. False: the result depends on the unit of length (C52_scale_refuted) and parts can lose all their cells (C52_parts_refuted)."
  },
  {
   "property": "C53",
   "status": "partial",
   "theorems": [
    "C53_interior",
    "C53_surface",
    "C53_vertices",
    "C53_sets_refuted",
    "C53_classification_refuted"
   ],
   "note": "MESH_DelInterior for all meshes of any dimension: exactly what is classified lower stays, unchanged and in order; with the classification of the topology exactly the surface is left. False: sets keep freed entities (C53_sets_refuted), and with a classification in which the boundary of a face that stays is inside the face has a freed edge (C53_classification_refuted)."
  },
  {
   "property": "C54",
   "status": "partial",
   "theorems": [
    "C54_off",
    "C54_off_numbers",
    "C54_stl",
    "C54_stl_words",
    "C54_refused",
    "C54_off_refuted",
    "C54_stl_refuted",
    "C54_emptied_refuted"
   ],
   "note": "MESH_ExportToOFF for all surface meshes: read with numbers from 1 the file is the mesh; MESH_ExportToSTL for all meshes of triangles: but for blanks the file is the mesh; which meshes are refused. False: OFF counts from 0 (C54_off_numbers, C54_off_refuted), the words of the STL file run together (C54_stl_words, C54_stl_refuted), a refused export to STL empties the file (C54_emptied_refuted)."
  },
  {
   "property": "C55",
   "status": "partial",
   "theorems": [
    "C55_connection",
    "C55_mutual",
    "C55_weave_points",
    "C55_weave_ids",
    "C55_weave_surface_points",
    "C55_weave_surface_ids",
    "C55_edges_refuted",
    "C55_mutual_refuted",
    "C55_weave_again_refuted"
   ],
   "note": "MESH_BuildConnection for all numbers of ranks, vertices and global IDs, all schedules and contents of unused memory: exactly who is flagged for what; flags for vertices and edges are mutual. After MESH_AssignGlobalIDs, as when meshes are woven together: the ranks flagged are those with twin vertices, by place or by given ID, in volume and surface meshes. False: weaving meshes again among more ranks (C55_weave_again_refuted); flags for edges and faces where there is only a common vertex (C55_edges_refuted); mutual flags for faces where one rank has no regions (C55_mutual_refuted)."
  },
  {
   "property": "C56",
   "status": "partial",
   "theorems": [
    "C56_volume",
    "C56_surface",
    "C56_surface_room",
    "C56_parts",
    "C56_surface_refuted",
    "C56_ids_refuted",
    "C56_failure_refuted"
   ],
   "note": "MESH_PartitionWithMetis, with METIS a parameter: what METIS is handed and what comes back, for all volume meshes and all surface meshes with at most two faces at an edge; for other surface meshes exactly when the array of neighbours is overrun. MESH_Get_Partitioning with METIS: parts on every rank. False: surface meshes with more faces at an edge (C56_surface_refuted), IDs with gaps (C56_ids_refuted), a METIS that fails (C56_failure_refuted). Not covered: Zoltan."
  },
  {
   "property": "C57",
   "status": "partial",
   "theorems": [
    "C57_export",
    "C57_import",
    "C57_agree",
    "C57_export_as",
    "C57_import_as",
    "C57_names_refuted",
    "C57_both_refuted",
    "C57_overflow_refuted"
   ],
   "note": "MESH_ExportToFile and MESH_ImportFromFile up to the call of the function for the format, for all names and formats: which one is called, and when -1 or 0 is returned; both agree on names that both accept. False: names with further dots are refused (C57_names_refuted), formats known to one direction only (C57_both_refuted), formats of 16 characters overrun the buffer (C57_overflow_refuted)."
  },
  {
   "property": "C58",
   "status": "proved",
   "theorems": [
    "C58_quads",
    "C58_oriented",
    "C58_refused"
   ],
   "note": "MESH_Tri2Quad, with the new vertices named after the entities they are made for: all cells and their sides, for all meshes of triangles; consistent directions are kept; other faces are refused. Not covered: coordinates, classification, removal of the temporary attributes."
  },
  {
   "property": "C59",
   "status": "partial",
   "theorems": [
    "C59_hexes",
    "C59_sides",
    "C59_conform",
    "C59_refused",
    "C59_tetrahedra_refuted",
    "C59_overflow_refuted"
   ],
   "note": "MESH_Tet2Hex, with the new vertices named after the entities they are made for: all cells, their faces seen from outside, and that they meet face to face, for all meshes of tetrahedra without double edges or faces; faces that are not triangles are refused. False: regions of triangles that are not tetrahedra are not refused: a face not found is used (C59_tetrahedra_refuted) or the array is overrun (C59_overflow_refuted). Not covered: coordinates, classification, removal of the temporary attributes."
  }
 ]
}