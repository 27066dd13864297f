{
 "claims": [
  {
   "property": "C01",
   "status": "proved",
   "theorems": [
    "C01_solution_is_model"
   ],
   "note": "Empty clauses excluded in the second half, see C07. Hypotheses met by: ex_rules_sat (PropSat.v)."
  },
  {
   "property": "C02",
   "status": "proved",
   "theorems": [
    "C02_unsat_is_sound"
   ],
   "note": "Hypotheses met by: ex_unsat_unsat (PropSat.v)."
  },
  {
   "property": "C03",
   "status": "proved",
   "theorems": [
    "C03_terminates",
    "C03_decides",
    "C03_bound"
   ],
   "note": "Every fuel above a bound gives the same result: the Python loop terminates. Hypotheses met by: ex_policy, ex_rules_wf (PropSat.v)."
  },
  {
   "property": "C04",
   "status": "proved",
   "theorems": [
    "C04_total_consistent"
   ],
   "note": "Hypotheses met by: ex_rules_sat (PropSat.v)."
  },
  {
   "property": "C05",
   "status": "proved",
   "theorems": [
    "C05_problem_unchanged"
   ],
   "note": "Hypotheses met by: ex_rules_sat, ex_unsat_unsat (PropSat.v)."
  },
  {
   "property": "C06",
   "status": "proved",
   "theorems": [
    "C06_lexicographic",
    "C06_all_preferred",
    "C06_priorities"
   ],
   "note": "Hypotheses met by: ex_env_ok, ex_env_solves, ex_follows (PropSat.v)."
  },
  {
   "property": "C07",
   "status": "proved",
   "theorems": [
    "C07_refuted",
    "C07_empty_ignored"
   ],
   "note": "The expected behaviour is refuted (C07_refuted: a concrete problem with an empty clause has no model, yet search returns a solution); C07_empty_ignored proves what the code does for every problem and policy: it decides the problem without its empty clauses."
  },
  {
   "property": "C08",
   "status": "proved",
   "theorems": [
    "C08_always_true",
    "C08_refuted"
   ],
   "note": "The property is false of the code: is_satisfiable answers True for every input."
  },
  {
   "property": "C09",
   "status": "proved",
   "theorems": [
    "C09_validate"
   ],
   "note": "Hypotheses met by: ex_rules_sat (PropSat.v)."
  },
  {
   "property": "C10",
   "status": "proved",
   "theorems": [
    "C10_assignment_map"
   ],
   "note": "Key 0 excluded. Hypotheses met by: ex_hist_ok (PropAset.v)."
  },
  {
   "property": "C11",
   "status": "proved",
   "theorems": [
    "C11_changelog",
    "C11_negative_key_refuted"
   ],
   "note": "Unassignment through positive keys (the quantifier of the property); negative-key unassignment is shown to mislog. Hypotheses met by: ex_hist_log (PropAset.v)."
  },
  {
   "property": "C12",
   "status": "proved",
   "theorems": [
    "C12_default_policy",
    "C12_undetermined_clause_policy",
    "C12_logged_policy"
   ],
   "note": "Hypotheses met by: ex_policy, ex_env_ok, ex_uc_inv (PropSat.v)."
  },
  {
   "property": "C13",
   "status": "proved",
   "theorems": [
    "C13_maximal",
    "C13_all_kept",
    "C13_release",
    "C13_example"
   ],
   "note": "Solve level: kept set is maximal among valid installations; if all can be kept nothing is removed."
  },
  {
   "property": "C14",
   "status": "proved",
   "theorems": [
    "C14_newest",
    "C14_newest_of_all",
    "C14_release",
    "C13_example",
    "C16_example"
   ],
   "note": "Lexicographic newest-first statement, the same up to packages of the same name and version, and the corollary for the newest candidate."
  },
  {
   "property": "C15",
   "status": "proved",
   "theorems": [
    "C15_unsat",
    "C15_sat",
    "C15_example"
   ],
   "note": "Against the independent specification 'valid' (SpecInstall.v), for every pool, request, modifiers and iteration order."
  },
  {
   "property": "C16",
   "status": "proved",
   "theorems": [
    "C16_valid",
    "C16_example"
   ],
   "note": "With pruning and names provided by packages of one name only; C17_refuted/C18_refuted/C45_remove_refuted show the assumptions are needed."
  },
  {
   "property": "C17",
   "status": "proved",
   "theorems": [
    "C17_closed",
    "C17_refuted",
    "C16_example"
   ],
   "note": "Holds when every name is provided by packages of one name; the claim with virtual provides is refuted by a run."
  },
  {
   "property": "C18",
   "status": "proved",
   "theorems": [
    "C18_needed",
    "C18_refuted",
    "C18_example"
   ],
   "note": "Holds for the packages needed for the request (C20); refuted for others by a run."
  },
  {
   "property": "C19",
   "status": "proved",
   "theorems": [
    "C19_consistent"
   ],
   "note": "Hypothesis: packages of the pool with equal keys are equal (pool ids identify packages) and names are dotted words. Hypotheses met by: ex_generates, ex_model (PropRules.v)."
  },
  {
   "property": "C20",
   "status": "proved",
   "theorems": [
    "C20_terminates",
    "C20_succeeds",
    "C20_explored"
   ],
   "note": "Exact exploration, termination for every request, success condition. Hypotheses met by: ex_generates (PropRules.v)."
  },
  {
   "property": "C21",
   "status": "proved",
   "theorems": [
    "C21_nothing_installed",
    "C21_blamed",
    "C21_must_fail",
    "C21_refuted",
    "C21_order_refuted",
    "C21_must_fail_example"
   ],
   "note": "Refuted as first stated (TypeError for an installed package with a missing dependency); with nothing installed only documented errors occur; blame and completeness of the two strict errors; the job order matters (C21_order_refuted)."
  },
  {
   "property": "C22",
   "status": "proved",
   "theorems": [
    "C22_candidates",
    "C22_job_candidates",
    "C22_dependencies_relaxed"
   ],
   "note": "Job candidates independent of the modifiers; dependency candidates only grow. Hypotheses met by: ex_pool (PropPool.v)."
  },
  {
   "property": "C23",
   "status": "proved",
   "theorems": [
    "C23_nothing_to_do",
    "C23_example",
    "C23_refuted"
   ],
   "note": "Holds without virtual provides; refuted with them."
  },
  {
   "property": "C24",
   "status": "proved",
   "theorems": [
    "C24_fewer_jobs",
    "C24_no_jobs"
   ],
   "note": "Hypotheses met by: ex_generates, ex_unsat (PropRules.v)."
  },
  {
   "property": "C25",
   "status": "proved",
   "theorems": [
    "C25_minimal"
   ],
   "note": "For every monotone callback; includes termination and the UnexpectedlySatisfiable case. Hypotheses met by: ex_sat_monotone, ex_mus (PropMus.v)."
  },
  {
   "property": "C26",
   "status": "proved",
   "theorems": [
    "C26_hint",
    "C26_total",
    "C26_example"
   ],
   "note": "Minimality against valid installations, and totality under the conditions of C30."
  },
  {
   "property": "C27",
   "status": "proved",
   "theorems": [
    "C27_operations",
    "C27_solve",
    "C16_example"
   ],
   "note": "Transaction and solve level. Hypotheses: pool ids identify packages (well_formed), decisions are consistent ids of the pool."
  },
  {
   "property": "C28",
   "status": "proved",
   "theorems": [
    "C28_order",
    "C28_solve",
    "C28_dependencies_first",
    "C16_example"
   ],
   "note": "Transaction and solve level; all dependencies are present when a package is installed."
  },
  {
   "property": "C29",
   "status": "proved",
   "theorems": [
    "C29_cycle",
    "C29_layers"
   ],
   "note": "Totality, ValueError iff cyclic (self-loops ignored), layering with earliest layer. Hypotheses met by: ex_topo, ex_topo_cyclic (PropGraph.v)."
  },
  {
   "property": "C30",
   "status": "proved",
   "theorems": [
    "C30_total",
    "C30_decides",
    "C30_refuted",
    "C16_example",
    "C30_otherwise"
   ],
   "note": "With acyclic dependencies in the pool solve answers; the claim for an acyclic outcome only is refuted."
  },
  {
   "property": "C31",
   "status": "proved",
   "theorems": [
    "C31_reachability",
    "C31_cyclic_refuted"
   ],
   "note": "Exact without cycles, sound always; the naive claim for cyclic graphs is refuted by an example. Hypotheses met by: ex_trans (PropGraph.v)."
  },
  {
   "property": "C32",
   "status": "proved",
   "theorems": [
    "C32_connected"
   ],
   "note": "Any queue order (queue pop arbitrary), termination and exactness. Hypotheses met by: ex_connected (PropGraph.v)."
  },
  {
   "property": "C33",
   "status": "proved",
   "theorems": [
    "C33_bfs"
   ],
   "note": "Paths, shortest, once. Hypotheses met by: ex_bfs (PropGraph.v)."
  },
  {
   "property": "C34",
   "status": "proved",
   "theorems": [
    "C34_dependencies",
    "C34_reverse",
    "C34_transitive",
    "C34_reverse_transitive",
    "C34_converse",
    "C34_leaves",
    "C34_leaves_plain",
    "C34_cyclic_refuted",
    "C34_leaves_refuted"
   ],
   "note": "Exact for direct dependencies and reverse dependencies; transitive results are exact without cycles (C34_cyclic_refuted: incomplete with cycles); leaves are exact for names without virtual providers (C34_leaves_refuted otherwise). Hypotheses met by: dep_repo_readable, dep_ex1-4 (PropDeps.v)."
  },
  {
   "property": "C35",
   "status": "proved",
   "theorems": [
    "C35_iteration",
    "C35_order_independent",
    "C35_order_independent_refuted",
    "C35_len",
    "C35_contains"
   ],
   "note": "Order independence when equal name+version packages are equal; the unconditional claim is refuted. Hypotheses met by: ex_repo_iter (PropRepo.v)."
  },
  {
   "property": "C36",
   "status": "proved",
   "theorems": [
    "C36_find_package",
    "C36_find_packages"
   ],
   "note": "Hypotheses met by: ex_repo_find (PropRepo.v)."
  },
  {
   "property": "C37",
   "status": "proved",
   "theorems": [
    "C37_created_iff",
    "C37_ids",
    "C37_package_id",
    "C37_stable"
   ],
   "note": "Hypotheses met by: ex_pool, ex_pool_bad (PropPool.v)."
  },
  {
   "property": "C38",
   "status": "proved",
   "theorems": [
    "C38_what_provides",
    "C38_order"
   ],
   "note": "Hypotheses met by: ex_pool (PropPool.v)."
  },
  {
   "property": "C39",
   "status": "proved",
   "theorems": [
    "C39_matches",
    "C39_requirement_matches",
    "C39_order"
   ],
   "note": "Versions are pairs (upstream, build) with upstream a totally ordered key."
  },
  {
   "property": "C40",
   "status": "proved",
   "theorems": [
    "C40_modified_accepts",
    "C40_only_relaxes",
    "C40_any",
    "C40_newer",
    "C40_older",
    "C40_upstream_build_refuted"
   ],
   "note": "For normal build numbers; the last theorem shows the restriction on ^= is needed. Hypotheses met by: ex_modified (PropConstraints.v)."
  },
  {
   "property": "C41",
   "status": "proved",
   "theorems": [
    "C41_untouched",
    "C41_only_install_modified",
    "C41_same_name",
    "C41_update_targets",
    "C41_remove_targets"
   ],
   "note": "Hypotheses met by: ex_modified, ex_conflict_untouched (PropConstraints.v)."
  },
  {
   "property": "C42",
   "status": "proved",
   "theorems": [
    "C42_upgrade_alone",
    "C42_append",
    "C42_rejected_unchanged",
    "C42_history"
   ],
   "note": "Hypotheses met by: ex_after, ex_history (PropRequest.v)."
  },
  {
   "property": "C43",
   "status": "proved",
   "theorems": [
    "C43_same_as",
    "C43_upgraded",
    "C43_example"
   ],
   "note": ""
  },
  {
   "property": "C44",
   "status": "proved",
   "theorems": [
    "C44_no_downgrade",
    "C44_refuted",
    "C44_example"
   ],
   "note": "True only for packages not newer than all remote ones; the unconditional claim is refuted."
  },
  {
   "property": "C45",
   "status": "proved",
   "theorems": [
    "C45_install",
    "C45_hard_update",
    "C45_remove",
    "C45_remove_refuted",
    "C16_example"
   ],
   "note": "C45_remove_refuted: a remove job on a name that is not installed can fail with KeyError."
  },
  {
   "property": "C46",
   "status": "proved",
   "theorems": [
    "C46_satisfiable",
    "C46_total",
    "C48_example"
   ],
   "note": ""
  },
  {
   "property": "C47",
   "status": "proved",
   "theorems": [
    "C47_consistent",
    "C47_complete",
    "C47_boolean_refuted",
    "C47_virtual_refuted",
    "C48_example"
   ],
   "note": "The is_satisfiable field is right; used as a condition the namedtuple is always true (refuted)."
  },
  {
   "property": "C48",
   "status": "proved",
   "theorems": [
    "C48_installable",
    "C48_unsat",
    "C48_total",
    "C48_default_refuted",
    "C48_example"
   ],
   "note": "With modifiers given; without them TypeError (refuted)."
  },
  {
   "property": "C49",
   "status": "proved",
   "theorems": [
    "C49_equivalent",
    "C49_result",
    "C49_refuted",
    "C49_cycle_refuted",
    "C48_example"
   ],
   "note": "Equivalent if each name is offered in one version and dependencies are acyclic; refuted in general."
  },
  {
   "property": "C50",
   "status": "proved",
   "theorems": [
    "C50_pretty",
    "C50_solve",
    "C50_virtual_refuted",
    "C50_virtual_fails_refuted",
    "C16_example"
   ],
   "note": "Holds when no package provides the name of another one; refuted with virtual provides."
  },
  {
   "property": "C51",
   "status": "proved",
   "theorems": [
    "C51_report",
    "C51_solve",
    "ex_report",
    "C51_core_refuted",
    "C51_empty_refuted"
   ],
   "note": "The report can always be built and printed; its rules are rules of the problem, explained by the request. Refuted: the named rules need not be contradictory, and the report can be empty."
  },
  {
   "property": "C52",
   "status": "proved",
   "theorems": [
    "C52_roundtrip"
   ],
   "note": "Equality of objects needs a non-empty constraint list."
  },
  {
   "property": "C53",
   "status": "proved",
   "theorems": [
    "C53_rules_explained",
    "C53_direction_refuted"
   ],
   "note": "Each rule is what its reason and requirement chain say; the printed direction of a conflict may be wrong (refuted). Hypotheses met by: ex_generates (PropRules.v)."
  },
  {
   "property": "C54",
   "status": "proved",
   "theorems": [
    "C54_full_name",
    "C54_full_name_error",
    "C54_package_string",
    "C54_example",
    "C54_dash_refuted",
    "C54_classes"
   ],
   "note": "Exact characterisation of accepted strings on a model of the backtracking matcher; hyphenated names are misread (refuted)."
  },
  {
   "property": "C55",
   "status": "proved",
   "theorems": [
    "C55_requirement_string",
    "C55_bare_name",
    "C55_exact",
    "C55_round_trip",
    "C55_round_trip_many",
    "C55_errors",
    "C55_example",
    "C55_round_trip_example",
    "C55_odd_strings"
   ],
   "note": "Exact characterisation, errors, printing and reading back."
  },
  {
   "property": "C56",
   "status": "proved",
   "theorems": [
    "C56_constraint_string",
    "C56_metadata",
    "C56_round_trip",
    "C56_errors",
    "C56_example"
   ],
   "note": "Exact characterisation; C56_metadata links the strings to the parsed constraints the rest of the model uses."
  },
  {
   "property": "C57",
   "status": "proved",
   "theorems": [
    "C57_name",
    "C57_installed",
    "C57_candidate",
    "C57_example"
   ],
   "note": "The expectation is refuted for every package name with '-'."
  },
  {
   "property": "C58",
   "status": "proved",
   "theorems": [
    "C58_refuted"
   ],
   "note": "A concrete pool in which solve installs a package without the requested name although the pool has one with it; the positive statements are C16 and the others, under well_formed."
  },
  {
   "property": "C59",
   "status": "proved",
   "theorems": [
    "C59_verdict",
    "C59_hash_seed",
    "C59_any_order",
    "C59_refuted",
    "C59_example"
   ],
   "note": "Reproducibility in general is refuted; the positive parts are proved by a simulation between two runs of the solver."
  },
  {
   "property": "C60",
   "status": "proved",
   "theorems": [
    "C60_logged",
    "C60_default",
    "C60_any",
    "C60_example"
   ],
   "note": "Simulation between two runs of the solver that differ in bookkeeping only."
  },
  {
   "property": "C61",
   "status": "proved",
   "theorems": [
    "C61_parse",
    "C61_determined",
    "C61_preamble",
    "C61_errors",
    "C61_round_trip",
    "C61_empty_refuted",
    "C61_alternatives_refuted",
    "C61_odd_strings",
    "C61_example"
   ],
   "note": "Grammar in SpecPretty.v; the round trip holds for canonical metadata and is refuted for others. Braces in constraint strings (interpreted by str.format) are not modelled."
  },
  {
   "property": "C62",
   "status": "proved",
   "theorems": [
    "C62_clauses",
    "C62_answer",
    "C62_example"
   ],
   "note": "Exact encoding; with C01-C03 the solver decides the question."
  },
  {
   "property": "C63",
   "status": "proved",
   "theorems": [
    "C63_log",
    "C63_policies",
    "C63_finished",
    "C63_report",
    "C63_installed_never",
    "C63_histogram",
    "C63_report_refuted",
    "C63_report_example",
    "C63_log_example"
   ],
   "note": "C63_log: a run with an observer that stops as soon as the log is not right (SpecLog.v) equals the run without it. Text layout of the report is not modelled; its content is."
  },
  {
   "property": "C64",
   "status": "proved",
   "theorems": [
    "C64_text",
    "C64_export",
    "C64_unsat",
    "C64_satisfiable",
    "C64_header",
    "C64_tools",
    "C64_header_refuted",
    "C64_modifiers_refuted",
    "C64_upgrade",
    "C64_script_refuted",
    "C64_example",
    "C64_key",
    "C64_key_header"
   ],
   "note": "A reader of the format in SpecDimacs.v. Running minisat and reading its answer are not modelled."
  },
  {
   "property": "C65",
   "status": "proved",
   "theorems": [
    "C65_again",
    "C65_again_soft",
    "C65_total",
    "C65_upgrade_refuted",
    "C65_ties_refuted",
    "C65_example"
   ],
   "note": "From C13-C16, C23, C27; C65_total: the second run also ends under the conditions of C30."
  },
  {
   "property": "C66",
   "status": "proved",
   "theorems": [
    "C66_fresh",
    "C66_fresh_hint",
    "C66_undisturbed",
    "C66_ids_stable",
    "C66_ids_match",
    "C66_what_provides",
    "C66_lookup_refuted",
    "C66_modifiers_refuted",
    "C66_failed_add_refuted",
    "C66_example"
   ],
   "note": "Session.v models the objects as a store; SpecSession.v reads what a history built off its calls. Not covered by C66_fresh: histories in which an add_repository raised, or in which name_to_packages was asked for an unknown name that is among the targets of the modifiers (both refuted)."
  },
  {
   "property": "C67",
   "status": "proved",
   "theorems": [
    "C67_loaded",
    "C67_marked",
    "C67_pool",
    "C67_valid",
    "C67_unsat",
    "C67_upgrade_refuted",
    "C67_duplicates_refuted",
    "C67_example",
    "C67_unsat_example"
   ],
   "note": "The YAML reader itself is not modelled: the data is what yaml.load returns, of the documented shape. SpecScenario.v reads the meaning off the data; C67_loaded is an equivalence, so everything else is refused."
  },
  {
   "property": "C68",
   "status": "proved",
   "theorems": [
    "C68_rule_text",
    "C68_report_text",
    "C68_example"
   ],
   "note": "The specification (SpecText.v) speaks of packages, not of literals. How versions and requirements are printed is a parameter (for requirements see C55)."
  },
  {
   "property": "C69",
   "status": "proved",
   "theorems": [
    "C69_simple",
    "C69_simple_inj",
    "C69_text",
    "C69_text_inj",
    "C69_hint",
    "C69_example",
    "C69_ambiguous_refuted"
   ],
   "note": "How versions, packages and requirements are printed is a parameter."
  },
  {
   "property": "C70",
   "status": "proved",
   "theorems": [
    "C70_wanted",
    "C70_minimal",
    "C70_no_spare",
    "C70_example",
    "C70_remove_refuted"
   ],
   "note": "C70_wanted also holds with virtual provides. Without pruning unrelated packages are installed (C18)."
  },
  {
   "property": "C71",
   "status": "proved",
   "theorems": [
    "C71_monotone",
    "C71_more_packages",
    "C71_order",
    "C71_more_modifiers",
    "C71_hard_update_refuted",
    "C71_modifiers_refuted",
    "C71_example"
   ],
   "note": "C71_monotone covers hard updates and upgrades too, if their choices stay at least as good."
  },
  {
   "property": "C72",
   "status": "proved",
   "theorems": [
    "C72_strict",
    "C72_strict_hint",
    "C72_pruning_unsat",
    "C72_pruning",
    "C72_pruning_example",
    "C72_strict_example"
   ],
   "note": ""
  },
  {
   "property": "C73",
   "status": "proved",
   "theorems": [
    "C73_any_order",
    "C73_search_again",
    "C73_late_clause",
    "C73_late_unit",
    "C73_no_setup",
    "C73_wrong_answer_refuted",
    "C73_unsat_refuted",
    "C73_assume_refuted",
    "C73_example"
   ],
   "note": "Reuse.v models a client of the solver object. Positive for building the problem in any order; the incremental use one would expect is refuted by examples."
  },
  {
   "property": "C74",
   "status": "proved",
   "theorems": [
    "C74_unchanged",
    "C74_update_other",
    "C74_update_self_diverges",
    "C74_update_self_empty",
    "C74_update_snapshot",
    "C74_seen",
    "C74_seen_once_refuted",
    "C74_example"
   ],
   "note": "RepoIter.v models the generator as a cursor into the live lists; non-termination is: out of fuel for every fuel."
  },
  {
   "property": "C75",
   "status": "proved",
   "theorems": [
    "C75_keys",
    "C75_getitem",
    "C75_group",
    "C75_copy",
    "C75_copy_shares",
    "C75_deepcopy",
    "C75_deepcopy_sharing_refuted",
    "C75_pickle",
    "C75_example",
    "C75_delete",
    "C75_store"
   ],
   "note": "Values are lists of integers kept in a store of objects, keys are integers."
  },
  {
   "property": "C76",
   "status": "proved",
   "theorems": [
    "C76_version",
    "C76_version_distinct",
    "C76_version_distinct_refuted",
    "C76_request",
    "C76_request_error",
    "C76_request_refuted",
    "C76_repository",
    "C76_exportable",
    "C76_repository_error",
    "C76_example"
   ],
   "note": "How versions are printed is a parameter; writing the JSON files is not modelled."
  },
  {
   "property": "C77",
   "status": "proved",
   "theorems": [
    "C77_equal",
    "C77_equivalence",
    "C77_raises",
    "C77_same_kind",
    "C77_hash",
    "C77_interchangeable",
    "C77_symmetric_refuted",
    "C77_none_refuted",
    "C77_class_refuted",
    "C77_order_refuted",
    "C77_example"
   ],
   "note": "Values.v models __eq__ with NotImplemented and the == protocol, and hash over arbitrary hash functions of the parts. Jobs and operations are not hashable."
  },
  {
   "property": "C78",
   "status": "proved",
   "theorems": [
    "C78_selected",
    "C78_fails",
    "C78_determined",
    "C78_roundtrip",
    "C78_example",
    "C78_sortable_refuted"
   ],
   "note": "Selection.v: the sort raises TypeError as soon as two keys cannot be compared (any comparison sort must compare such a pair; Python 3)."
  },
  {
   "property": "C79",
   "status": "proved",
   "theorems": [
    "C79_lowest_first",
    "C79_lowest",
    "C79_release",
    "C79_fewest_refuted",
    "C79_example"
   ],
   "note": "Strengthens C13_maximal."
  },
  {
   "property": "C80",
   "status": "proved",
   "theorems": [
    "C80_first_choice",
    "C80_newest",
    "C80_each_newest_refuted",
    "C80_example",
    "C80_newest_example"
   ],
   "note": "C06/C14 order the packages a request is about; C80 is about all packages. Proof: no decision is ever wrong, so there is no conflict."
  },
  {
   "property": "C81",
   "status": "proved",
   "theorems": [
    "C81_solvable",
    "C81_example"
   ],
   "note": "Hypotheses met by C81_example. Upgrade and hard update jobs depend on what is installed or on the whole pool and are not part of the claim."
  },
  {
   "property": "C82",
   "status": "proved",
   "theorems": [
    "C82_same",
    "C82_hint",
    "C82_front_refuted",
    "C82_example"
   ],
   "note": "Hypotheses met by C82_example."
  },
  {
   "property": "C83",
   "status": "proved",
   "theorems": [
    "C83_not_refused",
    "C83_restored",
    "C83_included",
    "C83_replay",
    "C83_satisfy",
    "C83_example",
    "C83_virtual_refuted",
    "C83_extra_refuted"
   ],
   "note": "Hypotheses met by C83_example."
  },
  {
   "property": "C84",
   "status": "proved",
   "theorems": [
    "C84_once",
    "C84_containers",
    "C84_consistent",
    "C84_complete",
    "C84_simplify",
    "C84_refuted"
   ],
   "note": "Iterables.v models which loops see the items. Hypotheses met by the packages of C84_refuted."
  },
  {
   "property": "C85",
   "status": "proved",
   "theorems": [
    "C85_states",
    "C85_consistent",
    "C85_retry",
    "C85_example",
    "C85_resume_refuted",
    "C85_upgrade_refuted"
   ],
   "note": "Hypotheses met by C85_example together with C16_example."
  },
  {
   "property": "C86",
   "status": "proved",
   "theorems": [
    "C86_history",
    "C86_example"
   ],
   "note": "Hypotheses met by C86_example: an interrupted transaction followed by a complete one."
  },
  {
   "property": "C87",
   "status": "proved",
   "theorems": [
    "C87_valid",
    "C87_answers",
    "C87_unsat",
    "C87_tools",
    "C87_refused",
    "C87_solver_exists",
    "C87_example",
    "C87_keeps_refuted"
   ],
   "note": "Hypotheses met by C87_example with the solver of C87_solver_exists. As in C64 the script is modelled as it would work with the present signatures (it cannot be run as it is)."
  },
  {
   "property": "C88",
   "status": "proved",
   "theorems": [
    "C88_text",
    "C88_raises",
    "C88_right_log",
    "C88_readable",
    "C88_line",
    "C88_histogram",
    "C88_histogram_readable",
    "C88_columns",
    "C88_text_example",
    "C88_example",
    "C88_readable_refuted"
   ],
   "note": "Hypotheses met by C88_example; C88_text_example shows a text."
  },
  {
   "property": "C89",
   "status": "proved",
   "theorems": [
    "C89_choice",
    "C89_fresh",
    "C89_keeps_account",
    "C89_stale_refuted"
   ],
   "note": "Hypotheses met by choice_example and plain_ok; assignments built by assigning keep account (C89_keeps_account)."
  },
  {
   "property": "C90",
   "status": "proved",
   "theorems": [
    "C90_upload",
    "C90_crash",
    "C90_killed",
    "C90_careful",
    "C90_gap",
    "C90_gap_refuted",
    "C90_verify",
    "C90_eight"
   ],
   "note": "Hypotheses met by upload_example and verify_example. The server and the clock are the environment: nobody else changes the release meanwhile."
  },
  {
   "property": "C91",
   "status": "proved",
   "theorems": [
    "C91_lines",
    "C91_packages",
    "C91_errors",
    "C91_round_trip",
    "C91_repository",
    "C91_rules",
    "C91_helper_refuted",
    "C91_example"
   ],
   "note": "Hypotheses met by C91_example (lines, packages, rules) and C61_example (canonical packages). YAML is not involved; versions are a parameter."
  },
  {
   "property": "C92",
   "status": "proved",
   "theorems": [
    "C92_new",
    "C92_calls",
    "C92_remove_string",
    "C92_targets",
    "C92_more_accept",
    "C92_removed",
    "C92_asdict",
    "C92_asdict_back",
    "C92_example"
   ],
   "note": "Hypotheses of C92_more_accept are met by the examples of C40 (ex_modified)."
  },
  {
   "property": "C93",
   "status": "proved",
   "theorems": [
    "C93_dumps",
    "C93_unique",
    "C93_files",
    "C93_succeeds",
    "C93_failure",
    "C93_empty_is_no_json",
    "C93_example"
   ],
   "note": "Hypotheses met by C93_example (success, and a failure that empties a file). json.dumps is the standard library's encoder, modelled for strings, lists and dicts."
  },
  {
   "property": "C94",
   "status": "proved",
   "theorems": [
    "C94_with",
    "C94_nested",
    "C94_not_run_refuted",
    "C94_answer",
    "C94_all",
    "C94_history",
    "C94_sane",
    "C94_stale_refuted"
   ],
   "note": "Hypotheses met by C94_stale_refuted (a history with a successful and a failing call). Readings of the clock are integers; the timer inside the report of SatisfiabilityError is not counted."
  },
  {
   "property": "C95",
   "status": "proved",
   "theorems": [
    "C95_ends",
    "C95_rounds",
    "C95_conditions",
    "C95_example",
    "C95_strict"
   ],
   "note": "Hypotheses met by C95_example (a cycle, ValueError), C95_strict and the runs of PropLimits.v. The recursion of the topological sort is not bounded by Python's stack in the model. TypeError is raised in strict mode (an installed package with a missing dependency), and in the model also stands for a package with an empty name (a requirement without name)."
  }
 ]
}