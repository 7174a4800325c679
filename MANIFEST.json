{
 "claims": [
  {
   "property": "C01",
   "status": "proved",
   "theorems": [
    "C01_renumber",
    "C01_renumber_rank2"
   ],
   "note": ""
  },
  {
   "property": "C02",
   "status": "proved",
   "theorems": [
    "C02_renumber_index",
    "C02_renumber_idempotent"
   ],
   "note": ""
  },
  {
   "property": "C03",
   "status": "proved",
   "theorems": [
    "C03_reorder"
   ],
   "note": ""
  },
  {
   "property": "C04",
   "status": "proved",
   "theorems": [
    "C04_dofs"
   ],
   "note": ""
  },
  {
   "property": "C05",
   "status": "proved",
   "theorems": [
    "C05_dofsPeriodic"
   ],
   "note": ""
  },
  {
   "property": "C06",
   "status": "proved",
   "theorems": [
    "C06_coor",
    "C06_conn",
    "C06_domain"
   ],
   "note": ""
  },
  {
   "property": "C07",
   "status": "proved",
   "theorems": [
    "C07_boundary_quad4",
    "C07_boundary_tri3"
   ],
   "note": ""
  },
  {
   "property": "C08",
   "status": "proved",
   "theorems": [
    "C08_periodic_quad4",
    "C08_periodic_tri3"
   ],
   "note": ""
  },
  {
   "property": "C09",
   "status": "proved",
   "theorems": [
    "C09_elementgrid",
    "C09_tiling",
    "C09_area",
    "C09_conforming_tiling"
   ],
   "note": ""
  },
  {
   "property": "C10",
   "status": "proved",
   "theorems": [
    "C10_tri3",
    "C10_conforming_tiling"
   ],
   "note": ""
  },
  {
   "property": "C11",
   "status": "proved",
   "theorems": [
    "C11_getOrientation",
    "C11_setOrientation"
   ],
   "note": ""
  },
  {
   "property": "C12",
   "status": "proved",
   "theorems": [
    "C12_coor",
    "C12_conn",
    "C12_tiles"
   ],
   "note": ""
  },
  {
   "property": "C13",
   "status": "proved",
   "theorems": [
    "C13_faces",
    "C13_open_faces",
    "C13_edges",
    "C13_open_edges",
    "C13_corners"
   ],
   "note": ""
  },
  {
   "property": "C14",
   "status": "proved",
   "theorems": [
    "C14_periodic"
   ],
   "note": ""
  },
  {
   "property": "C15",
   "status": "proved",
   "theorems": [
    "C15_dofsPeriodic_hex8",
    "C15_dofsPeriodic_quad4",
    "C15_dofsPeriodic_tri3"
   ],
   "note": ""
  },
  {
   "property": "C16",
   "status": "proved",
   "theorems": [
    "C16_terminates",
    "C16_layers"
   ],
   "note": ""
  },
  {
   "property": "C17",
   "status": "proved",
   "theorems": [
    "C17_mesh"
   ],
   "note": ""
  },
  {
   "property": "C18",
   "status": "proved",
   "theorems": [
    "C18_tiles"
   ],
   "note": ""
  },
  {
   "property": "C19",
   "status": "proved",
   "theorems": [
    "C19_boundary"
   ],
   "note": ""
  },
  {
   "property": "C20",
   "status": "proved",
   "theorems": [
    "C20_periodic"
   ],
   "note": ""
  },
  {
   "property": "C21",
   "status": "proved",
   "theorems": [
    "C21_layers",
    "C21_middle"
   ],
   "note": ""
  },
  {
   "property": "C22",
   "status": "proved",
   "theorems": [
    "C22_roll"
   ],
   "note": ""
  },
  {
   "property": "C23",
   "status": "proved",
   "theorems": [
    "C23_ravel",
    "C23_ravel_empty",
    "C23_ravel_all"
   ],
   "note": ""
  },
  {
   "property": "C24",
   "status": "partial",
   "theorems": [
    "C24_reconstruct",
    "C24_one_layer_refuted",
    "C24_nfine",
    "C24_sound"
   ],
   "note": "False as stated for meshes of a single layer of at least two elements: the search for the ends of the middle layer reads outside conn (C24_one_layer_refuted, for all such meshes). Proved for every other mesh with the default nfine; nfine different from the default is not recovered (C24_nfine)."
  },
  {
   "property": "C25",
   "status": "proved",
   "theorems": [
    "C25_terminates",
    "C25_layers",
    "C25_mesh"
   ],
   "note": ""
  },
  {
   "property": "C26",
   "status": "proved",
   "theorems": [
    "C26_tiles",
    "C26_middle"
   ],
   "note": ""
  },
  {
   "property": "C27",
   "status": "partial",
   "theorems": [
    "C27_faces",
    "C27_edges",
    "C27_open_edges",
    "C27_corners",
    "C27_open_faces_frontback",
    "C27_open_faces_leftright",
    "C27_open_faces_partial",
    "C27_open_faces_refuted"
   ],
   "note": "Faces, edges, open edges, corners, and the open faces bottom/top are proved. False for the open faces front/back/left/right when the outermost layers are refinement layers: the code skips these layers and so the nodes inside them (refuted with a witness). Exact content proved for all meshes (C27_open_faces_partial), the full claim where the outermost layers are not refined in that direction."
  },
  {
   "property": "C28",
   "status": "proved",
   "theorems": [
    "C28_map",
    "C28_rows",
    "C28_mapToFine",
    "C28_meanToCoarse",
    "C28_roundtrip",
    "C28_averageToCoarse"
   ],
   "note": ""
  },
  {
   "property": "C29",
   "status": "partial",
   "theorems": [
    "C29_same_domain_refuted",
    "C29_only_trivial",
    "C29_scaled_partial"
   ],
   "note": "False of the code: RefineRegular builds the fine mesh with the element size of the coarse mesh, so it covers nx*Lx x ny*Ly. The full claim is refuted with a witness, holds iff nx = ny = 1, and the scaled tiling is proved."
  },
  {
   "property": "C30",
   "status": "proved",
   "theorems": [
    "C30_constructor",
    "C30_lists",
    "C30_overlap",
    "C30_cells",
    "C30_area",
    "C30_mapToRegular"
   ],
   "note": ""
  },
  {
   "property": "C31",
   "status": "proved",
   "theorems": [
    "C31_overlapping"
   ],
   "note": ""
  },
  {
   "property": "C32",
   "status": "proved",
   "theorems": [
    "C32_ManualStitch",
    "C32_ManualStitch_throws",
    "C32_ManualStitch_only"
   ],
   "note": ""
  },
  {
   "property": "C33",
   "status": "proved",
   "theorems": [
    "C33_Stitch_history",
    "C33_Stitch_injective",
    "C33_Stitch_exact",
    "C33_Stitch_nodesets",
    "C33_Stitch_elemsets"
   ],
   "note": ""
  },
  {
   "property": "C34",
   "status": "proved",
   "theorems": [
    "C34_Vstack_history",
    "C34_Vstack_exact"
   ],
   "note": ""
  },
  {
   "property": "C35",
   "status": "proved",
   "theorems": [
    "C35_elem2node"
   ],
   "note": ""
  },
  {
   "property": "C36",
   "status": "proved",
   "theorems": [
    "C36_elem2node_dofs",
    "C36_elem2node_dofs_out_of_bounds"
   ],
   "note": ""
  },
  {
   "property": "C37",
   "status": "proved",
   "theorems": [
    "C37_nodaltyings",
    "C37_nodaltyings_symmetric",
    "C37_node2dof"
   ],
   "note": ""
  },
  {
   "property": "C38",
   "status": "proved",
   "theorems": [
    "C38_elemmap2nodemap",
    "C38_elemmap2nodemap_any"
   ],
   "note": ""
  },
  {
   "property": "C39",
   "status": "proved",
   "theorems": [
    "C39_edgesize",
    "C39_centers",
    "C39_other_types",
    "C39_nodal_mass",
    "C39_center_of_gravity",
    "C39_affine",
    "C39_parallelograms"
   ],
   "note": ""
  },
  {
   "property": "C40",
   "status": "proved",
   "theorems": [
    "C40_gather",
    "C40_scatter",
    "C40_scatter_any",
    "C40_schedule_dependence",
    "C40_round_trips",
    "C40_copy"
   ],
   "note": ""
  },
  {
   "property": "C41",
   "status": "proved",
   "theorems": [
    "C41_assemble",
    "C41_adjoint"
   ],
   "note": ""
  },
  {
   "property": "C42",
   "status": "proved",
   "theorems": [
    "C42_partition",
    "C42_copy",
    "C42_select",
    "C42_recombine"
   ],
   "note": ""
  },
  {
   "property": "C43",
   "status": "proved",
   "theorems": [
    "C43_Control",
    "C43_Control_fresh"
   ],
   "note": ""
  },
  {
   "property": "C44",
   "status": "proved",
   "theorems": [
    "C44_renumber",
    "C44_affine",
    "C44_Cdu_Cdp"
   ],
   "note": ""
  },
  {
   "property": "C45",
   "status": "proved",
   "theorems": [
    "C45_AsDofs_i",
    "C45_work",
    "C45_uninitialised",
    "C45_copy_p"
   ],
   "note": ""
  },
  {
   "property": "C46",
   "status": "proved",
   "theorems": [
    "C46_assemble",
    "C46_dot",
    "C46_elements",
    "C46_nodevec"
   ],
   "note": ""
  },
  {
   "property": "C47",
   "status": "proved",
   "theorems": [
    "C47_history",
    "C47_block",
    "C47_block_zero"
   ],
   "note": ""
  },
  {
   "property": "C48",
   "status": "proved",
   "theorems": [
    "C48_current",
    "C48_current_nodevec",
    "C48_matrix",
    "C48_shared_refuted",
    "C48_two_matrices_refuted"
   ],
   "note": "The property as stated (one matrix served by one solver) is proved for every history; the two _refuted theorems show that its one-matrix/one-solver condition is necessary, with concrete witnesses."
  },
  {
   "property": "C49",
   "status": "proved",
   "theorems": [
    "C49_equals",
    "C49_reaction"
   ],
   "note": ""
  },
  {
   "property": "C50",
   "status": "proved",
   "theorems": [
    "C50_solve",
    "C50_matrix"
   ],
   "note": ""
  },
  {
   "property": "C51",
   "status": "proved",
   "theorems": [
    "C51_solve",
    "C51_matrix"
   ],
   "note": ""
  },
  {
   "property": "C52",
   "status": "partial",
   "theorems": [
    "C52_agree_partial",
    "C52_out_of_bounds",
    "C52_solve_u_partial",
    "C52_refuted"
   ],
   "note": "False as stated: the dofval variant ignores b_d and reads m_iip for iid, Solve_u ignores b_d. Proved: the exact condition under which the variants agree, the out-of-bounds read when nnd > nnp, and refutations with witnesses."
  },
  {
   "property": "C53",
   "status": "proved",
   "theorems": [
    "C53_history",
    "C53_inverse",
    "C53_uninitialised",
    "C53_variants",
    "C53_matrix"
   ],
   "note": ""
  },
  {
   "property": "C54",
   "status": "partial",
   "theorems": [
    "C54_equals",
    "C54_solve",
    "C54_reaction",
    "C54_Solve_partial",
    "C54_Reaction_p_partial",
    "C54_Solve_refuted",
    "C54_Reaction_p_refuted"
   ],
   "note": "Equality with MatrixDiagonal, solve and reaction are proved for every history. False as stated: Solve(b) leaves exactly the prescribed entries uninitialised, and Reaction_p sizes its result with an uninitialised member of the base class (both refuted with witnesses; exact behaviour proved in the _partial theorems)."
  },
  {
   "property": "C55",
   "status": "proved",
   "theorems": [
    "C55_partition",
    "C55_kronecker",
    "C55_gradient",
    "C55_dinterp2",
    "C55_gauss",
    "C55_nodal",
    "C55_MidPoint_refuted"
   ],
   "note": "Also proved: the MidPoint rule (not part of the statement) is not exact for constants (C55_MidPoint_refuted)."
  },
  {
   "property": "C56",
   "status": "proved",
   "theorems": [
    "C56_interpolation",
    "C56_interpolation_affine",
    "C56_affine",
    "C56_chain",
    "C56_transpose_symmetric"
   ],
   "note": ""
  },
  {
   "property": "C57",
   "status": "partial",
   "theorems": [
    "C57_Gauss",
    "C57_Nodal",
    "C57_MidPoint_quarter",
    "C57_MidPoint_refuted",
    "C57_area_integral",
    "C57_positive"
   ],
   "note": "Proved for Gauss and Nodal (and equal to the integral of the Jacobian). False for MidPoint: its weight is 1 instead of 4, the volumes sum to a quarter of the area (refuted with a witness, exact value proved)."
  },
  {
   "property": "C58",
   "status": "proved",
   "theorems": [
    "C58_symmetric",
    "C58_quadratic",
    "C58_semidefinite",
    "C58_total",
    "C58_nodal"
   ],
   "note": ""
  },
  {
   "property": "C59",
   "status": "proved",
   "theorems": [
    "C59_virtual_work",
    "C59_zero",
    "C59_body"
   ],
   "note": ""
  },
  {
   "property": "C60",
   "status": "proved",
   "theorems": [
    "C60_action",
    "C60_symmetric",
    "C60_kernel"
   ],
   "note": ""
  },
  {
   "property": "C61",
   "status": "proved",
   "theorems": [
    "C61_out_of_plane",
    "C61_in_plane",
    "C61_volume",
    "C61_virtual_work",
    "C61_stiffness",
    "C61_mass"
   ],
   "note": ""
  },
  {
   "property": "C62",
   "status": "proved",
   "theorems": [
    "C62_mass_form",
    "C62_body",
    "C62_resultant",
    "C62_gradient",
    "C62_affine",
    "C62_transpose_symmetric",
    "C62_volume",
    "C62_Gauss",
    "C62_virtual_work",
    "C62_stiffness",
    "C62_stiffness_symmetric",
    "C62_mass"
   ],
   "note": ""
  },
  {
   "property": "C63",
   "status": "proved",
   "theorems": [
    "C63_partition",
    "C63_kronecker",
    "C63_gradient",
    "C63_dinterp3",
    "C63_gauss",
    "C63_nodal",
    "C63_interpolation"
   ],
   "note": ""
  },
  {
   "property": "C64",
   "status": "partial",
   "theorems": [
    "C64_sheared",
    "C64_refuted",
    "C64_partial",
    "C64_box_partial",
    "C64_transpose_symmetric"
   ],
   "note": "False as stated: Element.h:1220 uses dNxi(m,i) for dNxi(m,j); refuted with a sheared cube. Proved where the Jacobian matrix is diagonal, in particular for axis-aligned boxes."
  },
  {
   "property": "C65",
   "status": "proved",
   "theorems": [
    "C65_element_vectors"
   ],
   "note": ""
  },
  {
   "property": "C66",
   "status": "partial",
   "theorems": [
    "C66_isSequential_always_true_partial",
    "C66_isSequential_refuted"
   ],
   "note": "isSequential is true for every argument: the statement 'true only for sequential dofs' is refuted with a witness; the remaining claims are proved."
  },
  {
   "property": "C67",
   "status": "proved",
   "theorems": [
    "C67_isDiagonal"
   ],
   "note": ""
  },
  {
   "property": "C68",
   "status": "partial",
   "theorems": [
    "C68_stop_history",
    "C68_stop_empty",
    "C68_descending_partial",
    "C68_all_less_partial",
    "C68_all_less",
    "C68_descending",
    "C68_nan_refuted"
   ],
   "note": "The contents of the list are proved for every history. The two criteria are as stated for residuals that are not NaN; with NaN they are refuted (a NaN residual is below every tolerance, and hides an increase), and exactly what they decide is proved."
  },
  {
   "property": "C69",
   "status": "proved",
   "theorems": [
    "C69_AsTensor",
    "C69_AsTensor_rank",
    "C69_as3d"
   ],
   "note": ""
  },
  {
   "property": "C70",
   "status": "proved",
   "theorems": [
    "C70_defaultElementType"
   ],
   "note": ""
  },
  {
   "property": "C71",
   "status": "proved",
   "theorems": [
    "C71_is_unique"
   ],
   "note": ""
  },
  {
   "property": "C72",
   "status": "proved",
   "theorems": [
    "C72_unquote"
   ],
   "note": ""
  },
  {
   "property": "C73",
   "status": "proved",
   "theorems": [
    "C73_Hex8",
    "C73_Quad4",
    "C73_Planar",
    "C73_Axisym",
    "C73_schedule"
   ],
   "note": ""
  },
  {
   "property": "C74",
   "status": "proved",
   "theorems": [
    "C74_body",
    "C74_Gauss",
    "C74_virtual_work",
    "C74_zero",
    "C74_stiffness",
    "C74_symmetric",
    "C74_kernel",
    "C74_mass"
   ],
   "note": ""
  },
  {
   "property": "C75",
   "status": "proved",
   "theorems": [
    "C75_nodemap",
    "C75_induced",
    "C75_roll"
   ],
   "note": ""
  },
  {
   "property": "C76",
   "status": "partial",
   "theorems": [
    "C76_leftright_partial",
    "C76_truncated_refuted",
    "C76_one_layer_refuted"
   ],
   "note": "False as stated: the selection is cut off where the window leaves the mesh rolled to its middle block, and a mesh of a single layer is read out of bounds (both refuted with witnesses). The exact result is proved for all meshes with more than one layer; it is the claimed one whenever left <= mid and mid + right < nelx."
  },
  {
   "property": "C77",
   "status": "partial",
   "theorems": [
    "C77_around_all",
    "C77_around_partial",
    "C77_box_refuted"
   ],
   "note": "False as stated: the right side of the box can miss one column of fine elements (refuted with a witness), and the box is cut off by the sides of the rolled mesh. The exact set of selected elements is proved for all meshes with more than one layer."
  },
  {
   "property": "C78",
   "status": "partial",
   "theorems": [
    "C78_periodic",
    "C78_periodic_partial",
    "C78_periodic_refuted"
   ],
   "note": "False as stated when the outermost layers are refinement layers: nodes inside them on the back/right face are not tied (refuted with a witness). The full claim is proved where they are not, and the exact behaviour in general (C78_periodic_partial)."
  },
  {
   "property": "C79",
   "status": "proved",
   "theorems": [
    "C79_methods",
    "C79_hex8_regular",
    "C79_hex8_finelayer",
    "C79_quad4_regular",
    "C79_tri3_regular",
    "C79_quad4_finelayer"
   ],
   "note": ""
  },
  {
   "property": "C80",
   "status": "proved",
   "theorems": [
    "C80_dot",
    "C80_symmetric",
    "C80_energy"
   ],
   "note": ""
  },
  {
   "property": "C81",
   "status": "proved",
   "theorems": [
    "C81_tangent",
    "C81_tangent_grad"
   ],
   "note": ""
  },
  {
   "property": "C82",
   "status": "proved",
   "theorems": [
    "C82_statics"
   ],
   "note": ""
  },
  {
   "property": "C83",
   "status": "proved",
   "theorems": [
    "C83_newton"
   ],
   "note": ""
  },
  {
   "property": "C84",
   "status": "proved",
   "theorems": [
    "C84_virtual_work",
    "C84_translation",
    "C84_rotation"
   ],
   "note": ""
  },
  {
   "property": "C85",
   "status": "proved",
   "theorems": [
    "C85_momentum",
    "C85_reversible"
   ],
   "note": ""
  },
  {
   "property": "C86",
   "status": "proved",
   "theorems": [
    "C86_uniform",
    "C86_affine",
    "C86_patch",
    "C86_regular_mesh",
    "C86_rules"
   ],
   "note": ""
  },
  {
   "property": "C87",
   "status": "proved",
   "theorems": [
    "C87_unique",
    "C87_statics",
    "C87_rigid",
    "C87_rules",
    "C87_hourglass",
    "C87_held",
    "C87_regular_mesh"
   ],
   "note": ""
  },
  {
   "property": "C88",
   "status": "proved",
   "theorems": [
    "C88_setup",
    "C88_newton",
    "C88_forces",
    "C88_quad4",
    "C88_tri3",
    "C88_finelayer",
    "C88_hex8"
   ],
   "note": ""
  },
  {
   "property": "C89",
   "status": "proved",
   "theorems": [
    "C89_stress",
    "C89_run"
   ],
   "note": ""
  },
  {
   "property": "C90",
   "status": "proved",
   "theorems": [
    "C90_ldlt",
    "C90_statics_spd",
    "C90_statics",
    "C90_periodic_spd",
    "C90_periodic_stable",
    "C90_regular_periodic"
   ],
   "note": ""
  },
  {
   "property": "C91",
   "status": "proved",
   "theorems": [
    "C91_quads",
    "C91_tri",
    "C91_closed",
    "C91_joined",
    "C91_joined_tri"
   ],
   "note": ""
  },
  {
   "property": "C92",
   "status": "proved",
   "theorems": [
    "C92_divergence",
    "C92_boundary",
    "C92_bodies",
    "C92_cell"
   ],
   "note": ""
  },
  {
   "property": "C93",
   "status": "proved",
   "theorems": [
    "C93_stable",
    "C93_periodic",
    "C93_held",
    "C93_statics",
    "C93_patch"
   ],
   "note": ""
  },
  {
   "property": "C94",
   "status": "proved",
   "theorems": [
    "C94_build",
    "C94_sizes",
    "C94_total",
    "C94_by_value",
    "C94_rank",
    "C94_allocate"
   ],
   "note": ""
  },
  {
   "property": "C95",
   "status": "proved",
   "theorems": [
    "C95_build",
    "C95_copy",
    "C95_combine",
    "C95_select"
   ],
   "note": ""
  },
  {
   "property": "C96",
   "status": "proved",
   "theorems": [
    "C96_same",
    "C96_outputs",
    "C96_energy",
    "C96_bounded",
    "C96_cfl"
   ],
   "note": ""
  },
  {
   "property": "C97",
   "status": "proved",
   "theorems": [
    "C97_program",
    "C97_same"
   ],
   "note": ""
  },
  {
   "property": "C98",
   "status": "proved",
   "theorems": [
    "C98_build",
    "C98_total",
    "C98_release",
    "C98_by_value"
   ],
   "note": ""
  },
  {
   "property": "C99",
   "status": "proved",
   "theorems": [
    "C99_build",
    "C99_hole",
    "C99_total"
   ],
   "note": ""
  },
  {
   "property": "C100",
   "status": "proved",
   "theorems": [
    "C100_methods",
    "C100_by_value",
    "C100_checked",
    "C100_getters",
    "C100_affine",
    "C100_Quad4_one_component"
   ],
   "note": ""
  },
  {
   "property": "C101",
   "status": "partial",
   "theorems": [
    "C101_constructor",
    "C101_constructor_only",
    "C101_constructor_throws_partial",
    "C101_constructor_refuted",
    "C101_update_x"
   ],
   "note": "The last sentence is false of Quad4, QuadraturePlanar and Hex8: their constructors read xi before they assert its shape (refuted with a witness); it holds for QuadratureAxisymmetric, and for the others if xi has at least nip rows and ndim columns. The rest is proved."
  },
  {
   "property": "C102",
   "status": "proved",
   "theorems": [
    "C102_setup",
    "C102_shear",
    "C102_uniform",
    "C102_force"
   ],
   "note": ""
  },
  {
   "property": "C103",
   "status": "proved",
   "theorems": [
    "C103_manual"
   ],
   "note": ""
  },
  {
   "property": "C104",
   "status": "proved",
   "theorems": [
    "C104_rigid",
    "C104_restrained",
    "C104_three_nodes",
    "C104_statics",
    "C104_patch",
    "C104_boundary",
    "C104_cell",
    "C104_stable",
    "C104_periodic"
   ],
   "note": ""
  },
  {
   "property": "C105",
   "status": "proved",
   "theorems": [
    "C105_volume",
    "C105_chain",
    "C105_forces",
    "C105_nominal",
    "C105_power",
    "C105_hex8_refuted"
   ],
   "note": "All sentences are proved; for Hex8 only that about the volumes is claimed, that the others fail for it is proved as C105_hex8_refuted."
  },
  {
   "property": "C106",
   "status": "proved",
   "theorems": [
    "C106_run",
    "C106_start",
    "C106_stress"
   ],
   "note": ""
  },
  {
   "property": "C107",
   "status": "partial",
   "theorems": [
    "C107_partial",
    "C107_volume_partial",
    "C107_volume_refuted"
   ],
   "note": "False of the program: it adds the unit tensor to the symmetric gradient (symGradN_vector), which is the deformation gradient only where the displacement gradient is symmetric (proved, C107_partial); in general not, refuted with a body that rotates."
  },
  {
   "property": "C108",
   "status": "proved",
   "theorems": [
    "C108_small",
    "C108_finite",
    "C108_linear",
    "C108_raise",
    "C108_raised"
   ],
   "note": ""
  },
  {
   "property": "C109",
   "status": "proved",
   "theorems": [
    "C109_build",
    "C109_build_partitioned",
    "C109_total",
    "C109_first",
    "C109_off_diagonal",
    "C109_total_partitioned"
   ],
   "note": ""
  },
  {
   "property": "C110",
   "status": "proved",
   "theorems": [
    "C110_history",
    "C110_history_throws",
    "C110_queries",
    "C110_release",
    "C110_manual",
    "C110_manual_silent",
    "C110_vstack"
   ],
   "note": ""
  },
  {
   "property": "C111",
   "status": "partial",
   "theorems": [
    "C111_report",
    "C111_python_matrix_partial",
    "C111_python_matrix_refuted"
   ],
   "note": "False of the Python matrix: nni, nnd, iii and iid are bound to nnu, nnp, iiu and iip (python/Matrix.hpp:143-146); refuted with a witness (C111_python_matrix_refuted), and when each property is right is proved exactly (C111_python_matrix_partial). True, and proved, for the C++ API and for the Python tyings and vector (C111_report)."
  },
  {
   "property": "C112",
   "status": "partial",
   "theorems": [
    "C112_throws",
    "C112_accepts",
    "C112_release",
    "C112_chained",
    "C112_vector",
    "C112_calls",
    "C112_beyond",
    "C112_program",
    "C112_refuted",
    "C112_holes_refuted"
   ],
   "note": "False in three respects, each with a witness: a tie on a node that is dependent itself (or such a control DOF) is accepted and Cdi is then an access out of bounds (C112_refuted; exactly when: C112_chained); a control or prescribed DOF between existing ones that no node has reads uninitialised memory (C112_holes_refuted; C112_throws says exactly what throws, C112_accepts what is accepted if there are no holes); tying matrices for fewer DOFs than the mesh has are accepted and AsDofs_i is an access out of bounds (C112_beyond). All else is proved: C112_vector, C112_calls, C112_program (tyings, matrices and vector together: accepted if and only if valid), and that the build without assertions gives the same (C112_release)."
  },
  {
   "property": "C113",
   "status": "partial",
   "theorems": [
    "C113_build",
    "C113_release",
    "C113_not_implemented",
    "C113_total_partial",
    "C113_conn",
    "C113_dofval",
    "C113_dense",
    "C113_solution",
    "C113_refuted"
   ],
   "note": "False in two respects, each with a witness (C113_refuted): the constructor does not assert that the nodes of the connectivity exist (unlike Vector, Matrix and MatrixPartitioned), and assemble is then an access out of bounds, always (C113_conn); the solve with DOF values accesses out of bounds if and only if there are more dependent than prescribed DOFs (C113_dofval). All else is proved: C113_build, C113_release, C113_not_implemented, C113_total_partial (with exactly these two exceptions excluded), C113_dense, C113_solution (no DOF without a node)."
  },
  {
   "property": "C114",
   "status": "partial",
   "theorems": [
    "C114_edgesize",
    "C114_centers",
    "C114_elemmap2nodemap",
    "C114_nodaltyings",
    "C114_elem2node",
    "C114_orientation_read",
    "C114_orientation_set",
    "C114_orientation_val",
    "C114_refuted"
   ],
   "note": "False in the respects of C114_refuted, each with a witness: entries of an element map, tied nodes beyond the connectivity and nodes of triangles are not asserted to exist, so the call accesses out of bounds, also with assertions; the assertion of nodaltyings reads past the end of a list for ties that do not agree; and it accepts a DOF shared by two directions. All else is proved: C114_edgesize, C114_centers, C114_elemmap2nodemap, C114_nodaltyings, C114_elem2node, C114_orientation_read, C114_orientation_set, C114_orientation_val classify every call (the ties: for DOFs that directions do not share)."
  },
  {
   "property": "C115",
   "status": "partial",
   "theorems": [
    "C115_Regular",
    "C115_Hex8Regular",
    "C115_FineLayer",
    "C115_Hex8FineLayer",
    "C115_RefineRegular",
    "C115_elementsLayer",
    "C115_ravel_partial",
    "C115_ravel_refuted",
    "C115_meanToCoarse",
    "C115_averageToCoarse_partial",
    "C115_average_refuted",
    "C115_mapToFine",
    "C115_mapToRegular",
    "C115_as3d"
   ],
   "note": "False in two respects, each refuted with a witness: the assertions of elementgrid_ravel accept reversed ranges, which select other elements (C115_ravel_refuted: rows 9 to 1 select the lowest layers) or compute with a wrapped-around difference; averageToCoarse does not assert the rows of the weights, so with fewer rows it reads out of bounds also with assertions and surplus rows are ignored (C115_average_refuted). All else is proved, in both builds."
  },
  {
   "property": "C116",
   "status": "partial",
   "theorems": [
    "C116_rules",
    "C116_rules_refuted",
    "C116_bodies",
    "C116_volume",
    "C116_tube",
    "C116_no_strain",
    "C116_midpoint",
    "C116_held",
    "C116_floating",
    "C116_connected",
    "C116_uniform",
    "C116_stretch",
    "C116_isotropic",
    "C116_patch",
    "C116_closed",
    "C116_statics",
    "C116_cylinder"
   ],
   "note": ""
  },
  {
   "property": "C117",
   "status": "partial",
   "theorems": [
    "C117_asElementVector",
    "C117_assembleNodeVector",
    "C117_asTensor",
    "C117_asTensor_refuted",
    "C117_Control",
    "C117_Control_refuted",
    "C117_nodal_mass",
    "C117_center_of_gravity",
    "C117_FineLayer_partial",
    "C117_reconstruct",
    "C117_FineLayer_refuted"
   ],
   "note": "False for FineLayer(coor, conn): with assertions enabled it still reads out of bounds, for exactly the meshes with more than one element whose first or second half is one row (C117_FineLayer_partial is the exact characterisation, C117_FineLayer_refuted a witness with one row of two elements); and asElementVector asserts nothing, so a node that does not exist is read out of bounds in both builds (C117_asElementVector). All else is proved, in both builds."
  },
  {
   "property": "C118",
   "status": "proved",
   "theorems": [
    "C118_regular",
    "C118_joined"
   ],
   "note": ""
  },
  {
   "property": "C119",
   "status": "proved",
   "theorems": [
    "C119_volume",
    "C119_mass",
    "C119_regular"
   ],
   "note": ""
  },
  {
   "property": "C120",
   "status": "partial",
   "theorems": [
    "C120_refined",
    "C120_refuted",
    "C120_partial",
    "C120_middle_partial"
   ],
   "note": "False of the code: Element.h:1220 uses dNxi(m,i) for dNxi(m,j), and the elements of the refined layers are no boxes; refuted for both rules on the mesh of 3 x 9 x 2 (a uniform stretch gets a shear). Proved for all layers without refinement, in particular for elementsMiddleLayer on every mesh."
  },
  {
   "property": "C121",
   "status": "proved",
   "theorems": [
    "C121_mass",
    "C121_fine",
    "C121_regular",
    "C121_quad"
   ],
   "note": ""
  },
  {
   "property": "C122",
   "status": "proved",
   "theorems": [
    "C122_flight",
    "C122_fine",
    "C122_regular"
   ],
   "note": ""
  },
  {
   "property": "C123",
   "status": "proved",
   "theorems": [
    "C123_moments",
    "C123_quad",
    "C123_hex",
    "C123_diagonal_needed"
   ],
   "note": ""
  },
  {
   "property": "C124",
   "status": "proved",
   "theorems": [
    "C124_angular",
    "C124_quad",
    "C124_hex"
   ],
   "note": ""
  },
  {
   "property": "C125",
   "status": "proved",
   "theorems": [
    "C125_reactions",
    "C125_quad",
    "C125_hex"
   ],
   "note": ""
  }
 ]
}