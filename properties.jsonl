{"id": "C01", "title": "Lists behave as ordered sequences under any history", "statement": "After any history of List_Add, List_ChknAdd, List_Inserti, List_Rem, List_Remi, List_Remi_Raw, List_Replace, List_Replacei, List_Compress and List_Copy with non-NULL entries and in-range indices, the list shows one finite sequence: List_Num_Entries is its length, List_Entry(i) its i-th element, List_Contains its membership, List_Locate the first position of an element, a List_Next_Entry walk from 0 its elements in order; and each mutator changes that sequence exactly as its name says and changes nothing else.", "quantifier": "every sequence of list operations of every length (below the documented 2^27-1 limit), all entries and in-range indices", "why_tests_cant": "The observable sequence depends on the whole history through gaps, the cached first-gap index and re-allocations; tests sample a few short histories.", "anchors": ["src/util/List.c: List_Add, List_ChknAdd, List_Inserti, List_Rem, List_Remi, List_Remi_Raw, List_Replace, List_Replacei, List_Compress, List_Copy, List_Entry, List_Contains, List_Locate, List_Next_Entry, List_Num_Entries"]}
{"id": "C02", "title": "List_Cat appends the source and leaves a usable list", "statement": "List_Cat(dest,src) makes dest the concatenation of the two sequences, leaves src unchanged, and dest keeps behaving as a sequence under all later operations, whatever gaps the two lists had.", "quantifier": "all pairs of lists reachable by list operations and all later histories", "why_tests_cant": "Only destinations without gaps combined with sources with gaps followed by a later removal expose the wrong first-gap bookkeeping.", "anchors": ["src/util/List.c: List_Cat, List_Entry, List_Remi"]}
{"id": "C03", "title": "List_Insert puts the new entry directly before the given one", "statement": "List_Insert(l,new,b4) inserts new immediately before the first occurrence of b4, appends when b4 is NULL, and leaves the list unchanged when b4 does not occur.", "quantifier": "all lists and all pairs of entries", "why_tests_cant": "A test whose list happens to start with a different entry than b4 and checks only the length passes.", "anchors": ["src/util/List.c: List_Insert"]}
{"id": "C04", "title": "Removing and adding while walking a list is safe", "statement": "While a List_Next_Entry walk is in progress, any interleaving of List_Rem, List_Remi, List_Add and List_ChknAdd never makes the walk skip an entry that stays in the list, nor return an entry twice, nor return a removed entry: when the walk ends, everything still in the list has been returned, in order, and everything returned was in the list when it was returned.", "quantifier": "all lists, all interleavings of walk steps with removals and additions, all lengths", "why_tests_cant": "The number of interleavings is unbounded; mesh modification relies on all of them.", "anchors": ["src/util/List.c: List_Next_Entry, List_Rem, List_Remi, List_Add, List_ChknAdd"]}
{"id": "C05", "title": "List operations stay inside their allocation", "statement": "No list operation used with in-range indices reads an uninitialised cell or reads or writes outside the allocated array, whatever the previous history, including the block moves in List_Inserti, List_Compress and List_Cat.", "quantifier": "all histories of list operations with total size below 2^27-1", "why_tests_cant": "Off-by-one writes depend on sizes hitting powers of two together with gaps.", "anchors": ["src/util/List.c: List_New, List_Add, List_Inserti, List_Compress, List_Cat, List_Copy"]}
{"id": "C06", "title": "Sorted removal removes the requested entry only", "statement": "List_RemSorted on a list sorted by a key terminates and removes exactly the entry with the given key if one is present, otherwise it removes nothing and returns 0.", "quantifier": "all key-sorted lists with arbitrary gaps, all keys", "why_tests_cant": "Termination and bounds depend on the positions of gaps relative to the bisection points.", "anchors": ["src/util/List.c: List_RemSorted", "src/base/Mesh.c: MESH_Rem_Vertex, MESH_Rem_Edge, MESH_Rem_Face, MESH_Rem_Region"]}
{"id": "C07", "title": "Hash table interns entities by key", "statement": "After any history of Hash_Add / Hash_ChknAdd with entities whose keys (defining sub-entities) are pairwise different, Hash_Entry(key) returns the entity stored with that key and NULL for a key never stored; growth of the table never loses or changes an entry.", "quantifier": "all key sets, all insertion orders, any number of re-hashes", "why_tests_cant": "Probing collisions and growth points depend on key hash values.", "anchors": ["src/util/Hash.c: Hash_Add, Hash_ChknAdd, Hash_Entry, pvtHash_Enlarge, Hash_Entries, Hash_Num_Entries"]}
{"id": "C08", "title": "Hash enumeration and removal of unused entries", "statement": "Hash_Entries lists every stored entity exactly once, and Hash_Remove_Unused removes exactly the unlocked entries while all others stay retrievable by key.", "quantifier": "all tables reachable by insertions, all sets of locked entries", "why_tests_cant": "Which entries share a probe chain with a removed one varies with hash values.", "anchors": ["src/util/Hash.c: Hash_Entries, Hash_Remove_Unused, Hash_Lock, Hash_UnLock, Hash_IsLocked"]}
{"id": "C09", "title": "Pair quicksort sorts by key and keeps pairs", "statement": "The library quicksort on an array returns a permutation of its input in non-decreasing order, for every input including duplicates and empty ranges, and never accesses outside the given range.", "quantifier": "all arrays of all lengths and all index ranges", "why_tests_cant": "Boundary conditions of the partition depend on duplicates and pivot positions.", "anchors": ["src/util/mstk_quicksort.c: mstk_quicksort"]}
{"id": "C10", "title": "Entity comparators are total orders consistent with IDs", "statement": "The comparison functions used for sorting and searching entity lists are total preorders that return 0 only for equal keys, so qsort and bsearch on them are well defined.", "quantifier": "all pairs and triples of entities with arbitrary IDs / global IDs / coordinates", "why_tests_cant": "Overflow and tolerance effects appear only for special values.", "anchors": ["src/misc/compare_funcs.c: compareGlobalID, compareID, compareINT, compareVertexCoor, compareCoorDouble, compareEdgeINT, compareFaceINT"]}
{"id": "C11", "title": "Markers handed out are distinct until freed", "statement": "MSTK_GetMarker never returns a marker that is currently in use, never returns 0, fails only when all are in use, and MSTK_FreeMarker frees only the given one.", "quantifier": "all histories of get and free operations", "why_tests_cant": "Uniqueness depends on the whole get/free history.", "anchors": ["src/base/MSTK.c: MSTK_GetMarker, MSTK_FreeMarker"]}
{"id": "C12", "title": "Marks are independent", "statement": "Marking or unmarking an entity with one marker never changes any other marker on any entity; MEnt_IsMarked reports exactly the last mark/unmark with that marker; List_Mark and List_Unmark do this for precisely the entries of the list.", "quantifier": "all histories of mark, unmark over all entities and markers", "why_tests_cant": "Needs all marker pairs, entity pairs and histories.", "anchors": ["src/base/MEntity.c: MEnt_Mark, MEnt_Unmark, MEnt_IsMarked", "src/util/List.c: List_Mark, List_Unmark"]}
{"id": "C13", "title": "Packed entity fields do not disturb each other", "statement": "Setting any one of dimension, representation type, deleted flag, temporary flag, geometric dimension, geometric ID, parallel type, on-boundary flag, master partition, ID leaves every other one unchanged, and each getter returns what was last set (within the field's range).", "quantifier": "all field values in range, all histories of setters", "why_tests_cant": "Packed bit fields: all combinations of values are needed.", "anchors": ["src/base/MEntity.c: MEnt_Set_GEntDim, MEnt_Set_GEntID, MEnt_Set_DelFlag, MEnt_Set_Volatile, MEnt_Set_RepType_Data, MEnt_Set_Dim, MEnt_Set_PType, MEnt_Flag_OnParBoundary, MEnt_Unflag_OnParBoundary, MEnt_Set_MasterParID"]}
{"id": "C14", "title": "Attribute values form an independent map", "statement": "MEnt_Get_AttVal(e,a) returns the value of the last MEnt_Set_AttVal(e,a,..) not followed by a removal, and setting, removing or clearing one (entity, attribute) pair never changes another pair.", "quantifier": "all histories of set, get, remove and clear over all entities and attributes", "why_tests_cant": "Interference between pairs depends on order of attachments in the per-entity list.", "anchors": ["src/base/MEntity.c: MEnt_Set_AttVal, MEnt_Get_AttVal, MEnt_Rem_AttVal, MEnt_Clear_AttVal, MEnt_Rem_AllAttVals"]}
{"id": "C15", "title": "Set algebra on mesh sets", "statement": "MSets_Union, MSets_Intersect and MSets_Subtract produce a set with exactly the entities in either / both / the first but not the second operand, without duplicates, and leave the operands and all marks unchanged.", "quantifier": "all pairs of mesh sets", "why_tests_cant": "Depends on overlap patterns of the operands.", "anchors": ["src/base/MSet.c: MSets_Cat, MSets_Union, MSets_Intersect, MSets_Subtract"]}
{"id": "C16", "title": "Entity IDs are unique and stable", "statement": "Along any history of creating, deleting and restoring entities, all live entities of one kind in a mesh have pairwise different IDs and no creation changes the ID of an existing entity.", "quantifier": "all histories of create, delete, restore", "why_tests_cant": "Uniqueness is a property of the whole history.", "anchors": ["src/base/Mesh.c: MESH_Add_Vertex, MESH_Rem_Vertex, MESH_Add_Edge, MESH_Rem_Edge, MESH_Add_Face, MESH_Rem_Face, MESH_Add_Region, MESH_Rem_Region", "src/base/MVertex.c: MV_New, MV_Delete, MV_Restore"]}
{"id": "C17", "title": "Lookup by ID is exact", "statement": "MESH_VertexFromID (and edge, face, region versions) returns the live entity carrying that ID and NULL if there is none, whatever creations, deletions and renumberings came before.", "quantifier": "all IDs, all histories", "why_tests_cant": "Fast paths are taken only for certain list layouts.", "anchors": ["src/base/Mesh.c: MESH_VertexFromID, MESH_EdgeFromID, MESH_FaceFromID, MESH_RegionFromID"]}
{"id": "C18", "title": "Mesh counts and iteration show the live entities", "statement": "MESH_Num_X equals the number of live entities and MESH_Next_X / MESH_X(i) enumerate exactly them, once each, after any history of creation, deletion and restoration.", "quantifier": "all histories", "why_tests_cant": "Histories unbounded.", "anchors": ["src/base/Mesh.c: MESH_Num_Vertices, MESH_Vertex, MESH_Next_Vertex, MESH_Add_Vertex, MESH_Rem_Vertex"]}
{"id": "C19", "title": "Sequential renumbering gives 1..n in list order", "statement": "MESH_Renumber(mesh,0,type) gives the k-th entity of the requested kinds ID k (so IDs are 1..n without repetition), keeps the order and the identity of entities, and leaves kinds not requested untouched.", "quantifier": "all meshes, all requested kinds", "why_tests_cant": "All initial numberings and sizes.", "anchors": ["src/hilev/MESH_Renumber.c: MESH_Renumber", "src/base/Mesh.c: MESH_Reset_Cached_MaxIDs"]}
{"id": "C20", "title": "Parallel adjacency flags are independent per partition and kind", "statement": "Flagging that partition p has (or is owner of) ghosts / overlaps of one kind changes the answer of MESH_Has_Ghosts_From_Prtn / MESH_Has_Overlap_On_Prtn for that partition and kind only, and receive counts stored for one partition and kind are read back unchanged for that pair only.", "quantifier": "all partitions, kinds and histories of flag updates", "why_tests_cant": "Bit packing across partitions and kinds.", "anchors": ["src/base/Mesh.c: MESH_Flag_Has_Ghosts_From_Prtn, MESH_Has_Ghosts_From_Prtn, MESH_Flag_Has_Overlaps_On_Prtn, MESH_Has_Overlap_On_Prtn, MESH_Init_Par_Recv_Info, MESH_Set_Num_Recv_From_Prtn, MESH_Num_Recv_From_Prtn"]}
{"id": "C21", "title": "Parallel adjacency is symmetric across ranks", "statement": "After MESH_Update_ParallelAdj, rank p says it has ghosts of a kind from rank q exactly when rank q says it has overlaps of that kind needed on rank p, and p's receive count for q, when it has ghosts from q, equals q's number of overlap entities.", "quantifier": "all numbers of ranks, all distributions of ghosts", "why_tests_cant": "All distributions over any number of ranks.", "anchors": ["src/par/MESH_ParallelAdj.c: MESH_Update_ParallelAdj"]}
{"id": "C22", "title": "Vertex-edge and edge-face incidence stay mutual", "statement": "Along any history of creating, connecting, replacing and deleting vertices, edges, faces and regions (full representation F1), an edge is listed at a vertex exactly when the vertex is an end of the edge, a face is listed at an edge exactly when the edge is on the face, and a region is recorded on a face side exactly when the face bounds the region with that orientation.", "quantifier": "all histories of topology operations", "why_tests_cant": "The two directions of the incidence are updated by different functions; every history counts.", "anchors": ["src/base/MEdge.c: ME_Set_Vertex, ME_Delete", "src/base/MEdge_F1.c", "src/base/MVertex_F1.c", "src/base/MF_Edge_Funcs_F1F3.c: MF_Set_Edges_F1F3, MF_Replace_Edges_i_F1F3, MF_Rem_Edge_F1F3", "src/base/MFace_F1.c", "src/base/MR_Face_Funcs_FNR3R4.c", "src/base/MRegion_F1.c"]}
{"id": "C23", "title": "Face vertex loops follow the edges", "statement": "MF_Vertices returns, for every closed edge loop and either direction, the vertices in order so that consecutive ones are the two ends of the corresponding edge, starting at the requested vertex; the two directions give reversed cycles.", "quantifier": "all faces with any number of edges, any edge orientations, any start vertex", "why_tests_cant": "All polygon sizes and orientation patterns.", "anchors": ["src/base/MF_Vertex_Funcs_F1F3.c: MF_Vertices_F1F3", "src/base/MF_Edge_Funcs_F1F3.c: MF_Edges_F1F3"]}
{"id": "C24", "title": "Replacing edges of a face keeps the directions of the others", "statement": "MF_Replace_Edges_i replaces a run of edges by new ones with the given directions and keeps the cyclic order and the directions of all remaining edges.", "quantifier": "all faces, all run positions and lengths, all directions", "why_tests_cant": "Wrong bits show only when at least two edges more are removed than added, or runs wrap around.", "anchors": ["src/base/MF_Edge_Funcs_F1F3.c: MF_Replace_Edges_i_F1F3, MF_Replace_Edges_F1F3, MF_Rem_Edge_F1F3"]}
{"id": "C25", "title": "Region faces keep their directions and sides when others change", "statement": "MR_Rem_Face, MR_Replace_Faces and MR_Set_Faces leave the direction and the two-sided region records of all faces not named in the call unchanged.", "quantifier": "all regions, all numbers of faces, all replacement patterns", "why_tests_cant": "Packed direction words across 32-face boundaries.", "anchors": ["src/base/MR_Face_Funcs_FNR3R4.c: MR_Rem_Face_FNR3R4, MR_Replace_Faces_FNR3R4, MR_Set_Faces_FNR3R4, MR_FaceDir_i_FNR3R4, MR_Set_FaceDir_i_FNR3R4"]}
{"id": "C26", "title": "Upward adjacency queries are complete and duplicate free", "statement": "MV_Faces, MV_Regions, ME_Regions, MR_Edges, MR_Vertices return exactly the entities reachable through the incidence relation, each once, and leave all marks as they were.", "quantifier": "all meshes satisfying mutual incidence", "why_tests_cant": "All incidence patterns.", "anchors": ["src/base/MVertex_F1.c: MV_Faces_F1, MV_Regions_F1", "src/base/MEdge_F1.c: ME_Regions_F1", "src/base/MR_Edge_Funcs_FN.c", "src/base/MR_Vertex_Funcs_FNR3R4.c"]}
{"id": "C27", "title": "Delete and restore round trip", "statement": "Deleting an entity with keep and then restoring it gives back the same incidence and the same live counts.", "quantifier": "all meshes and entities deletable", "why_tests_cant": "All incidence patterns around the entity.", "anchors": ["src/base/MEdge_F1.c: ME_Delete_F1, ME_Restore_F1", "src/base/MFace_F1.c: MF_Delete_F1, MF_Restore_F1", "src/base/MRegion_F1.c: MR_Delete_F1, MR_Restore_F1"]}
{"id": "C28", "title": "Splitting an edge preserves the mesh", "statement": "ME_Split replaces an edge by two edges meeting at the new vertex in every face that used it, keeping the faces' remaining edges, their directions and closed vertex loops.", "quantifier": "all meshes, all edges, any number of incident faces", "why_tests_cant": "All face sizes, positions and directions of the edge in each face.", "anchors": ["src/mod/ME_Split.c: ME_Split", "src/mod/ME_MultiSplit.c: ME_MultiSplit"]}
{"id": "C29", "title": "Splitting a face along a new edge", "statement": "MF_Split_with_Edge divides a face into two faces that share the new edge with opposite senses, whose remaining edges are the original ones with original directions, each used by exactly one of the two.", "quantifier": "all polygons, all pairs of vertices, all edge orientations", "why_tests_cant": "All sizes and vertex positions.", "anchors": ["src/mod/MF_Split_with_Edge.c: MF_Split_with_Edge"]}
{"id": "C30", "title": "Global IDs are unique and agree between owner and ghosts", "statement": "After global ID assignment over all ranks, two owned entities never get the same global ID, IDs are consecutive blocks per rank, and every ghost has the global ID of its owner.", "quantifier": "all numbers of ranks and all distributions", "why_tests_cant": "All distributions over any number of ranks.", "anchors": ["src/par/MESH_Renumber_GlobalIDs.c", "src/par/MESH_AssignGlobalIDs.c"]}
{"id": "C31", "title": "Attribute update makes ghosts equal to their owners", "statement": "After MESH_Update1Attribute, the attribute value on every ghost equals the value on its master entity, and values on owned entities are unchanged.", "quantifier": "all numbers of ranks, all values, all distributions", "why_tests_cant": "Depends on values and distributions on all ranks.", "anchors": ["src/par/MESH_Update1Attribute.c: MESH_Update1Attribute"]}
{"id": "C32", "title": "Pairwise exchange never deadlocks", "statement": "The blocking send/receive order used by the attribute and ghost updates cannot deadlock: under every schedule and even with fully synchronous sends all ranks finish, and every message is received by the intended receive.", "quantifier": "all numbers of ranks, all communication patterns, all schedules", "why_tests_cant": "Schedules and rank counts are unbounded; buffered sends hide deadlocks in tests.", "anchors": ["src/par/MESH_Update1Attribute.c: MESH_Update1Attribute", "src/par/MESH_XchngEdgeFaceAttrib.c"]}
{"id": "C33", "title": "Parallel type labels are closed", "statement": "After MESH_LabelPType, the labels are consistent: an entity is on the parallel boundary only if its sub-entities are, and ghost / overlap status respects adjacency.", "quantifier": "all meshes and partitions", "why_tests_cant": "All partitions.", "anchors": ["src/par/MESH_LabelPType.c: MESH_LabelPType"]}
{"id": "C34", "title": "Level structures are breadth-first distances", "statement": "Graph_Build_LevelStructure on a connected graph assigns to each node its distance from the root, lists every node exactly once, and reports depth and width truthfully.", "quantifier": "all connected graphs and roots", "why_tests_cant": "All graphs.", "anchors": ["src/util/Graph_renumber.c: Graph_Build_LevelStructure"]}
{"id": "C35", "title": "Graph renumbering yields a permutation", "statement": "The graph renumbering routine returns a numbering in which every node gets a different number 0..n-1.", "quantifier": "all connected graphs", "why_tests_cant": "All graphs.", "anchors": ["src/util/Graph_renumber.c: Graph_Renumber_GPS, Graph_Assign_Numbers"]}
{"id": "C36", "title": "Native file write / read round trip", "statement": "Reading back a file written by MESH_WriteToFile gives a mesh with the same entities, connectivity, directions, classification and attribute values (up to the printed precision).", "quantifier": "all meshes", "why_tests_cant": "All meshes, all attribute types.", "anchors": ["src/base/MESH_WriteToFile.c: MESH_WriteToFile", "src/base/MESH_InitFromFile.c: MESH_InitFromFile"]}
{"id": "C37", "title": "Structured generation produces the full grid", "statement": "MESH_Gen_Structured in 2D and 3D creates the right number of vertices, edges, faces and cells, with each cell having the right corner vertices, neighbouring cells sharing their common face or edge, and boundary entities classified on the right model entity.", "quantifier": "all grid sizes", "why_tests_cant": "All sizes.", "anchors": ["src/hilev/MESH_Gen_Structured.c: MESH_Gen_Structured"]}
{"id": "C38", "title": "Topology checker accepts only consistent meshes", "statement": "If MESH_CheckTopo reports a valid mesh then every edge, face and region adjacency in it is mutual and every face loop is closed.", "quantifier": "all meshes", "why_tests_cant": "All meshes.", "anchors": ["src/hilev/MESH_CheckTopo.c: MESH_CheckTopo"]}
{"id": "C39", "title": "Element templates are consistent", "statement": "The built-in tet, pyramid, prism and hex templates describe closed surfaces: every edge belongs to exactly two faces with opposite senses, and building a region from its vertices then asking for its vertices returns them in the same order.", "quantifier": "all standard element types, all vertex assignments and all stored face orderings and directions", "why_tests_cant": "All orderings and orientations of the shared faces.", "anchors": ["include/MSTK_globals.h", "src/base/MRegion.c: MR_Set_Vertices", "src/base/MR_Vertex_Funcs_FNR3R4.c: MR_Vertices_FNR3R4"]}
{"id": "C40", "title": "Merging entities transfers all uses", "statement": "MVs_Merge, MEs_Merge and MFs_Merge leave no entity that refers to the deleted one, and every entity that used the deleted one uses the kept one in its place, with the direction adjusted.", "quantifier": "all meshes and mergeable pairs", "why_tests_cant": "All incidence patterns around both.", "anchors": ["src/mod/MVs_Merge_FN.c", "src/mod/MEs_Merge_FN.c", "src/mod/MFs_Merge_FN.c"]}
{"id": "C41", "title": "Element graph is symmetric", "statement": "MESH_GetElementGraph returns for each element exactly the elements sharing a face (edge in 2D) with it, so the relation is symmetric and irreflexive.", "quantifier": "all meshes", "why_tests_cant": "All adjacency patterns.", "anchors": ["src/hilev/MESH_GetElementGraph.c"]}
{"id": "C42", "title": "A mesh sent is the mesh received", "statement": "The messages of MESH_SendMesh make MESH_RecvMesh on another processor build a copy of the mesh: same entities, IDs, global IDs, ends, loops and faces with directions, classification, coordinates, parallel data, attributes and sets; and it takes exactly these messages.", "quantifier": "all meshes, attributes and sets", "why_tests_cant": "The packing of fields into integers, buffer sizes, and the pairing of messages must hold for every mesh, in particular for sizes no test reaches.", "anchors": ["src/par/MESH_SendMesh.c", "src/par/MESH_RecvMesh.c", "src/par/MESH_Send_NonVertexEntities.c", "src/par/MESH_Recv_NonVertexEntities.c", "src/par/MESH_Send_Attribute.c", "src/par/MESH_Recv_Attribute.c", "src/par/MESH_Send_MSet.c", "src/par/MESH_Recv_MSet.c"]}
{"id": "C43", "title": "Joining two faces or two regions", "statement": "MFs_Join replaces two faces with a common edge by one face whose closed loop is made of the two loops without that edge; MRs_Join gives the first of two regions with a common face the faces of the second. The common edge or face and the old cells are gone, everything else is kept, the adjacencies are mutual and a joined region is closed if both were; splitting a face and joining the parts gives the face back. Calls that do not fit change nothing.", "quantifier": "all meshes, faces, regions and common edges or faces", "why_tests_cant": "Positions of the common edge in both loops, orientations, the order of the faces in the region and the number of common entities vary independently.", "anchors": ["src/mod/MFs_Join.c", "src/mod/MRs_Join.c"]}
{"id": "C44", "title": "Swapping an edge and splitting a face at a point", "statement": "ME_Swap2D replaces two triangles at an edge by the two triangles at the other diagonal of their quadrilateral, with the orientation of the surface; swapping twice gives the first triangles back. MF_Split replaces a face by triangles that join each of its edges to a new vertex, with the direction of the edge, and gives them to the regions of the face, which stay closed. Everything else is kept and the adjacencies are mutual; calls that do not fit change nothing.", "quantifier": "all meshes, edges and faces", "why_tests_cant": "The positions and directions of the edges in both loops, the directions of the face in its regions and the number of edges vary independently.", "anchors": ["src/mod/ME_Swap2D.c", "src/mod/MF_Split.c"]}
{"id": "C45", "title": "Collapsing an edge", "statement": "ME_Collapse draws the ends of an edge together: the triangles at the edge go, the deleted vertex is replaced by the kept one in every edge, edges that come to join the same two vertices are made one, every other face keeps its loop with the kept vertex in place of the deleted one, and the lists of deleted entities and merged pairs say exactly what happened. The kept vertex is the one asked for or, when the geometric model is respected, the one on the lower-dimensional model entity; collapses that do not fit the model change nothing.", "quantifier": "all meshes, edges, classifications and global IDs", "why_tests_cant": "The choice of the vertex, of the edge kept in each pair, the order of the lists while they are being shortened and the directions of the edges in the faces vary independently.", "anchors": ["src/mod/ME_Collapse.c", "src/mod/MEs_Merge_FN.c"]}
{"id": "C46", "title": "Partitioning a mesh", "statement": "MESH_Partition makes one submesh for each part number. Submesh k has exactly one copy of each cell given to part k and of each face, edge and vertex that bounds such a cell, with the same ends, loops, orientations, coordinates, classification and global ID; the lists of copies name exactly the copies, at most one for each part; the master of every entity is the first part that has it, in the mesh and in every copy; entities without global IDs get 1, 2, ... without gaps or repetition; nothing else in the mesh changes.", "quantifier": "all complete meshes of faces or of regions with at most 30 edges to a face that were not partitioned before, all numbers of parts and all arrays with a part number for each cell", "why_tests_cant": "An entity at the border is met once from each of its cells, in every order of parts and in every direction; whether the copy made earlier is found again depends on all the cells made before.", "anchors": ["src/par/MESH_Partition.c"]}
{"id": "C47", "title": "Boundaries between parts", "statement": "After MESH_Partition, MESH_BuildPBoundary flags an entity of a submesh exactly if it bounds something of the mesh that is not in the submesh's part; in a mesh where everything is on a cell these are exactly the entities that other parts have too. No type, master, global ID or anything else of the submesh changes.", "quantifier": "all complete meshes of faces or of regions with at most 30 edges to a face that were not partitioned before, all part arrays, all submeshes", "why_tests_cant": "The code counts neighbours in the submesh and in the mesh and hands flags down from faces to edges and vertices; that no shared vertex or edge is missed depends on every way parts can touch, also at a single vertex.", "anchors": ["src/par/MESH_BuildPBoundary.c", "src/par/MESH_Partition.c"]}
{"id": "C48", "title": "Attributes and sets of the parts", "statement": "When a mesh with attributes and sets is partitioned and these are copied to the submeshes, every submesh has the attributes of the mesh in their order with the same name, type and number of components; a copy of an entity has the value of the entity unless that is null, and no other values exist. Every submesh has the sets of the mesh, each holding exactly the copies of the entries that are in the part, in their order. Nothing else of the submeshes changes.", "quantifier": "all partitioned meshes, all lists of attributes of different names with values of their type (vectors: at least two components and a value on every entity in a part), all sets of different names whose entries are in a part; single attributes and sets also to submeshes that have values or entries already", "why_tests_cant": "Values go through lists of copies that depend on the whole partition; a value given to the copy of a neighbouring part or a set entry lost in one part shows only for particular partitions.", "anchors": ["src/par/MESH_CopyAttr.c", "src/par/MESH_CopySet.c", "src/par/MESH_Partition.c", "src/par/MESH_Partition_and_Send.c"]}
{"id": "C49", "title": "Ghost layers around the parts", "statement": "When a mesh is partitioned and layers of ghost cells are added, the mesh of a part has exactly the cells of the part and those reached from them in the given number of steps over a shared vertex, and all that bounds these, with the same boundaries, coordinates, classification and global IDs; the master of each entity is the lowest part that has it without ghosts. What another part is the master of is a ghost; what this part is the master of is overlap if another mesh has it too and else interior. So every ghost is an overlap entity in the mesh of its master, under the same global ID, and conversely; and with one layer or more every cell that touches a cell of the part is there. The lists of copies are exact.", "quantifier": "all partitioned meshes (surfaces and volumes), all partitions in which every part has a cell, all numbers of layers; the types: meshes without dangling entities", "why_tests_cant": "A cell missed in the second layer, or an overlap entity typed as interior, shows only for particular shapes of parts and is noticed much later, when values are exchanged.", "anchors": ["src/par/MESH_AddGhost.c", "src/par/MESH_Partition_and_Send.c", "src/par/MESH_BuildPBoundary.c", "src/par/MESH_Partition.c"]}
{"id": "C50", "title": "Copying a mesh", "statement": "MESH_Copy into a new mesh makes a copy with the same entities in the same order, the same IDs and global IDs, ends, loops and faces with directions, classification, coordinates, parallel types, boundary flags and masters; with all attributes of the source, of the same types, with its values other than 0 and other than addresses and no others; and with all sets, with the copies of the same entities in the same order.", "quantifier": "all complete meshes of type F1 with edges and faces, faces of at most 30 edges, any IDs, any attributes (not called copyatt) and sets, with and without copying these", "why_tests_cant": "Tests copy small meshes with consecutive IDs and compare counts; a direction, a flag or a value lost for one kind of entity is not seen.", "anchors": ["src/base/MESH_Copy.c"]}
{"id": "C51", "title": "A mesh is distributed and works", "statement": "When a mesh is distributed from one rank, the mesh of every rank, after it was copied on rank 0 or sent and received on the others, has exactly its part and the wanted layers of ghosts, with the same boundaries, coordinates, classification, types and masters; entities of two ranks have the same global ID exactly if they are copies of the same entity, and the master of an entity has it. The lists of ghosts and of overlap are exact and in the order of global IDs. The exchange that follows always ends and tells each rank exactly which ranks it has ghosts from and which have ghosts of it. An update of an attribute or of coordinates after that gives every copy the value of the master, and the exchange across boundaries gives the two sides of a face (an edge of a surface) between two parts the value of each other. All ranks have the same attributes.", "quantifier": "all meshes of type F1 (surfaces and volumes) without dangling entities, with all, or no, global IDs set, all partitions into 2 to 2^28 parts in which every part has a cell, all numbers of layers, all values, all interleavings of the ranks; no attributes requested", "why_tests_cant": "That the stages fit together depends on invariants each leaves for the next: the order of the lists, global IDs, masters and types on other ranks. A mismatch is a deadlock or a wrong value for some partitions only.", "anchors": ["src/par/MSTK_Mesh_Distribute.c", "src/par/MESH_Partition_and_Send.c", "src/par/MESH_BuildGhostList.c", "src/par/MESH_Update_ParallelAdj.c"]}
{"id": "C52", "title": "Columns of cells stay in one part", "statement": "When a partition is changed so that vertical columns are not cut, every cell of a column gets the part of the topmost cell of the column and no other cell changes its part. In a mesh of columns it always succeeds, two cells on top of each other end in the same part and every cell in the part of the top of its column. For every mesh of cells with closed faces it ends, with a result or an error, without leaving its arrays. The result does not depend on the unit of length, and every part that had cells still has some.", "quantifier": "all meshes of regions of type F1 with numbered regions, all binary64 coordinates (also NaN and infinite), all arrays of parts", "why_tests_cant": "Columns are followed from face to face with markers; that the order of the regions, and of the faces of a region, does not matter, and that no cell is in two columns, needs a proof over all meshes.", "anchors": ["src/par/FixColumnPartitions.c", "src/hilev/MF_Coords.c"]}
{"id": "C53", "title": "Deleting the interior leaves the boundary", "statement": "When the interior of a mesh is deleted, exactly the faces, edges and vertices classified on model entities of lower dimension than the cells stay, in their order, with the same boundaries, coordinates, classification and IDs, and the mesh can be used on. Of a volume mesh whose classification follows from its topology the surface is left: the faces that had one region, their edges and their vertices. A mesh of vertices is not changed. Sets have no deleted entities, and no face or edge has a deleted boundary.", "quantifier": "all meshes of type F1 of dimension 1 to 3 without dangling pointers, all classifications in which the boundary of what stays, stays; the last sentence: all classifications", "why_tests_cant": "Deletion goes by position in lists that shrink, and each entity may only be freed after everything that uses it; an entity missed or freed early shows only for some orders and classifications.", "anchors": ["src/hilev/MESH_DelInterior.c"]}
{"id": "C54", "title": "Exports in OFF and STL hold the surface", "statement": "A surface mesh written in the format OFF can be read as such a file: its points are the vertices of the mesh in order, to 12 decimals, and its polygons are the faces in order, each with its vertices in the order of the face. A surface mesh of triangles written in the format STL can be read as such a file: a facet for each face in order, with its normal to 8 decimals and its corners in order, to 10. Meshes with regions, and for OFF without faces and for STL with other faces than triangles, are refused, and the file is then as it was.", "quantifier": "all surface meshes of type F1 with proper faces, all coordinates (infinities and NaN too), all numbers of entities that fit an int", "why_tests_cant": "The exporters have no importer in the library, so no round trip can be tested; whether all coordinates and loops come back is a question about every printed number.", "anchors": ["src/io/MESH_ExportToOFF.c", "src/io/MESH_ExportToSTL.c"]}
{"id": "C55", "title": "Ranks flag exactly the ranks they share vertices with", "statement": "After the collective call that builds the connections of a distributed mesh, a rank has flagged another rank for vertices and edges, and for faces if its part has regions, exactly if that was so before or both have a vertex of the same global ID that neither takes for an interior one. All ranks come to an end under every schedule, whatever the unused part of the gathered buffers holds, and nothing else changes. Two ranks therefore flag each other or neither does.", "quantifier": "all numbers of ranks, all numbers and orders of vertices, all global IDs that are ints and not negative and differ within a rank, all earlier flags, all schedules, all contents of uninitialised memory", "why_tests_cant": "Tests run with a few ranks and meshes that all have neighbours; searches in blocks of different lengths padded with uninitialised values, and ranks sharing a single vertex or lacking regions, come up with particular partitions only.", "anchors": ["src/par/MESH_BuildConnection.c:30", "src/base/Mesh.c:1202", "src/par/MSTK_Weave_DistributedMeshes.c:75"]}
{"id": "C56", "title": "METIS is handed the graph of the cells, and every cell gets a part", "statement": "When a mesh is partitioned with METIS, METIS is handed the graph of its cells in compressed form: a cell is listed for another as often as the two share a face (volume meshes) or an edge (surface meshes), never for itself, each neighbour is a vertex of the graph, and nothing is written outside the arrays. The parts returned are those METIS gives, one below the number of ranks for every cell, on rank 0 only; one rank gets everything without METIS.", "quantifier": "all meshes whose cells are numbered in order, all numbers of cells and of cells at a face or edge, all numbers of parts, every behaviour of METIS", "why_tests_cant": "The array for the neighbours has two entries for every face or edge of the mesh; only surfaces with enough edges of three or more faces fill it, and tests partition grids.", "anchors": ["src/par/MESH_PartitionWithMetis.c:25", "src/par/MESH_Get_Partitioning.c:30"]}
{"id": "C57", "title": "The extension of a file name decides the format", "statement": "When a mesh is written to or read from a file without a format being given, the part of the name after its dot decides which format is used, a name without a known extension is refused with -1, and a name that both directions accept is written and read in the same format. A format that is given decides instead of the name. No name or format, of any length, makes the program write outside its buffers.", "quantifier": "all file names, all format strings, libraries with and without ExodusII", "why_tests_cant": "Tests use a handful of names with one dot and the documented formats; names with further dots, formats that merely begin like a known one, and long format strings are never tried.", "anchors": ["src/io/MESH_ExportToFile.c:31", "src/io/MESH_ImportFromFile.c:18"]}
{"id": "C58", "title": "Triangles are cut into quadrilaterals that meet side to side", "statement": "Cutting a mesh of triangles into quadrilaterals gives three cells for every triangle, each with four different vertices, one of them a corner of the triangle and one its centre; every corner of a triangle gets its cell. The sides of the cells are exactly the halves of the edges, in the direction in which the triangle goes along them, and the lines from the middles of the edges to the centre in both directions. If no two triangles go along an edge in the same direction, the same holds for the cells. A mesh with a face that is not a triangle is refused.", "quantifier": "all surface meshes whose faces are closed loops of edges through different vertices, whatever the order and directions of the edges in their loops", "why_tests_cant": "No test calls the function; whether vertices and edges of a face are listed from the same start, and the table of corners, matter for every order and direction of the three edges.", "anchors": ["src/hilev/MESH_Tri2Quad.c:27"]}
{"id": "C59", "title": "Tetrahedra are cut into hexahedra that meet face to face", "statement": "Cutting a mesh of tetrahedra into hexahedra gives four cells for every tetrahedron, each with eight different vertices, one of them a corner of the tetrahedron and one its centre; every corner of a tetrahedron gets its cell. Seen from outside, the faces of the cells are exactly the parts at the corners of the faces of the tetrahedra, turned as these are, and faces at the centre, each of which another cell has on its other side. At a face between two tetrahedra every face of a cell is matched by a cell on the other side. A mesh with a face that is not a triangle, or a region that is not a tetrahedron, is refused.", "quantifier": "all meshes of tetrahedra without double edges or faces, whatever the order, directions and starts of the faces and edges", "why_tests_cant": "No test calls the function; the table of corners, the search for common edges and faces and the order of the vertices matter for every way in which the faces of a tetrahedron are listed and turned.", "anchors": ["src/hilev/MESH_Tet2Hex.c:28", "src/base/MFace.c:369"]}
