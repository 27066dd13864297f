# Formal model of enthought/sat-solver (simplesat) in Coq 8.16.1

## 1. Approach

* **Model** (`Base AssignmentSet MiniSat Policy SatDefs Constraints Regex Parser Package Sorting Repository Pool Request
  Graph Rules Transaction DepSolver Deps Report ...`): small total Gallina functions that mirror the Python functions branch
  by branch. Every definition cites file and lines, and says what it simplifies. Exceptions are values
  (`res A := Ok a | Raise e`). Loops that are not structurally recursive take fuel and return `Raise OutOfFuel`;
  every theorem about such a loop either proves that some fuel suffices (termination) or excludes `OutOfFuel` explicitly.
* **Specifications** (`Spec*.v`): independent of the model's helper functions (propositional semantics,
  finite maps, meaning of version constraints, valid installations, grammar of strings, ...).
  `SpecCheck.v` holds boolean checkers used only to show that concrete cases meet hypotheses.
* **Proofs** (`*Proofs.v`, `Sat*.v`, `Rules*.v`, `Solve*.v`, ...).
* **Property theorems** (`Prop*.v`), named `Cnn_...`, followed by `Print Assumptions` and by examples showing that
  concrete non-trivial inputs meet the hypotheses.
* A property the code violates gets a theorem `..._refuted` with a concrete witness computed by the model,
  and the strongest positive statement found.

Libraries: Coq standard library and std++ (gmap/gset/lists). No axioms are used.

## 2. Data representation

* Python ints used as literals/variables/ids: `Z`. Python `dict`/`set` of ints: `gmap Z`/`gset Z`.
  Where the code iterates over a `set`, whose order Python leaves unspecified, the model either does not depend
  on the order or takes the order as an explicit parameter (`env`) over which theorems quantify.
* Mutable `Clause` objects shared between lists: a heap `list clause` addressed by index; index 0 is the shared
  `Clause([])` default argument of `assume`.
* Python lists used as stacks (`trail`, `trail_lim`) are stored top first.
* `EnpkgVersion` (package okonomiyaki, not in the repo): a pair (upstream, build) ordered lexicographically, with
  the upstream version represented by its rank in the total order of upstream versions (`Z`). The code only uses
  ==, <, <=, `.upstream`, `.build` of versions. Any finite collection of versions embeds in this representation.
* Strings are Coq strings: characters with codes 0 to 255 (ASCII and Latin-1). Parsing (C54-C57) works on lists of these, classified as Python
  does (C54_classes); characters beyond Latin-1 are not covered. `re` is modelled by a backtracking matcher that returns all matches in the order Python
  tries them (`Regex.v`), `re.Scanner` by the first lexicon entry that matches.
* Outside C54-C57, constraint strings in package metadata are represented by what they parse to (a list of constraints);
  C56_metadata proves that this agrees with parsing the strings. Requirement strings that the code builds itself:
  `_from_string(package.name)` goes through the parser model (`name_requirement`), because it matters for some names;
  `from_package_string("name-version")` and `_from_string("name == version")` (repository.py 116,
  compute_dependencies.py 78, dependency_solver.py 36 and 534, rules_generator.py 59) are represented by their result `req_exact`, which
  C54_package_string and C55_exact prove to be the result for dotted names.
* `p_repo` stands for everything else that takes part in package equality (the repository info and the spelling of the metadata strings).
  A constraint string that does not parse acts like a dependency with two alternatives, apart from the name of the exception: `from_constraints` raises.
* Logging, `__repr__` and error message texts are not modelled, except where a property is about them
  (the unsat report C51, strings C54-C56); timing has its own model (Timing.v, C94), proved not to change answers.

## 3. Properties and how they are proved

| id | modelled code | proof |
|----|---------------|-------|
| C01-C05 | clause.py, assignment_set.py, minisat.py | one invariant of the CDCL state (trail/level/reason structure, two-watched-literal invariant with pending exemptions, entailment of all held clauses); termination, with an explicit bound: the trail, read as a word over decision < implied, grows in lexicographic order |
| C06 | same + abstract policy | decisions below the level of a listed variable are all earlier listed variables; entailment from those decisions |
| C07, C08 | add_clause/search, sat/__init__.py | refuted with witnesses; what the code does instead is proved for all inputs |
| C09 | validate | direct |
| C10, C11 | assignment_set.py | representation invariant, induction over operation list |
| C12 | policy/*.py | policy invariant; set order is a parameter |
| C13, C14 | policy + minisat + solve | instances of C06 |
| C15, C19, C20, C24 | pool.py, rules_generator.py | worklist invariant; characterisation of the generated rule set; both directions against `valid` |
| C16, C23, C45 | dependency_solver.py, transaction.py | C01 + C19 + characterisation of pruning and of the operations |
| C17, C18, C21, C30 | same | refuted as first stated; proved under explicit conditions |
| C22 | pool.py | direct |
| C25, C26 | dependency_solver.py | induction on length; C24 gives monotonicity |
| C27, C28, C50 | transaction.py | from C29 |
| C29, C31, C32, C33 | utils/graph.py | induction/invariants; C31 refuted for cyclic graphs, proved for acyclic |
| C34 | compute_dependencies.py | from the graph characterisation |
| C35, C36 | repository.py | invariant over additions; order independence fails for twins (same name and version) |
| C37, C38 | pool.py | invariant over additions |
| C39, C40, C41 | constraints/*.py | case analysis; C40 fails for `^=` with a build number |
| C42 | request.py | induction over calls |
| C43, C44 | dependency_solver.py | C43 direct; C44 refuted, proved with a condition |
| C46, C47, C48, C49 | dependency_solver.py | from C15/C16; C47, C48 (default argument), C49 refuted as first stated |
| C51, C53 | minisat.py (UNSAT), rules_generator.py, errors.py | clause trails refer to older clauses only; every rule is traced to the work queue entry that made it |
| C52 | requirement.py | case analysis |
| C54-C56 | parser.py, requirement.py | languages of matchers; the first match is the longest; scanner inversion |
| C57 | rules_generator.py, parser.py | invariant: every package with rules has a readable name |
| C58 | package.py, pool.py | concrete run (refutation) |
| C59, C60 | policy_logger.py, undetermined_clause_policy.py, dependency_solver.py, transaction.py | simulation between two runs of the SAT solver; sorting and max are order independent for distinct versions |
| C61 | package_parser.py | first matches of finditer; dictionaries by invariant; uniqueness of sorted lists |
| C62 | examples/van_der_waerden.py | arithmetic, then C01-C03 |
| C63 | policy_logger.py, assignment_set.py | specification SpecLog.v (snapshots of the values at the decisions); invariant of the search with an observing policy |
| C64 | scripts/scenario_to_dimacs.py, tools/minisat_helpers.py | a reader of the format (SpecDimacs.v) inverts the writer; a JSON reader (SpecJson.v) inverts the key (PropKey.v); C15/C19 for the meaning of the clauses |
| C65 | solve, twice | the state after the first run is valid (C16) and keeps everything in the second (C13); packages of equal name, version and metadata are interchangeable (TwinProofs.v), so that C14 applies in both directions |
| C66 | pool.py, request.py, constraint_modifiers.py, solve as calls on shared objects | a store of objects (Session.v); the contents after a history are functions of the calls (SpecSession.v); pools that differ in empty entries give the same answers |
| C67 | test_utils.py: scenario files after YAML loading, and solving them (tests/test_scenarios_policy.py) | Scenario.v; SpecScenario.v says what the data means; loading is equivalent to it (induction over the lists), and the pool built meets the hypotheses of C15, C16 |
| C68 | PackageRule.to_string, Pool.id_to_string, UNSAT.to_string | SpecText.v describes the text in terms of packages; from C53 (which now also says that literals are sorted and pairs are pairs) and the invariants of the report (C51) |
| C69 | Transaction.to_string, to_simple_string, _Job.__str__, hint_pretty_string (Texts.v) | splitting into lines inverts joining; first blank ends a word |
| C70 | solve with pruning | induction over what pruning reaches from the names of the roots (PruneProofs.v), mapped to the packages present; C16 |
| C71 | solve twice | C13 and C15: a valid installation for the first request is one for the second; dependencies and jobs compared semantically |
| C72 | solve with other options | strict: the outcomes are compared step by step through the rule generator and the hint; pruning: both transactions come from one solution (FinalProofs.v, TransProofs.v) |
| C73 | a client of one MiniSATSolver object: add_clause, _setup_assignments, search in any order (Reuse.v) | the invariant of the search (SatInv.v) holds from any such state; refutations by computation |
| C74 | Repository.__iter__ as a cursor into the live lists (RepoIter.v) | induction over the rest of the list; divergence: out of fuel for every fuel |
| C75 | DefaultOrderedDict over a store of list objects (OrdDict.v) | induction over operations |
| C76 | _composer_utils.py (Composer.v) | relation between constraints and texts (SpecComposer.v), both directions by induction |
| C77 | `__eq__` and `__hash__` of all value classes, the == protocol (Values.v) | case analysis over pairs of classes |
| C78 | packages_from_requirements with the comparison of keys (Selection.v) | the lexicographic order is a strict total order up to equal keys; sorting lemmas (SortUniq.v) |
| C79 | order of the preferred ids (SolveProofs.v: id_sorted) | C06_priorities with the packages of no higher version as those that have priority |
| C80 | the decision set of the policy, the clauses between rivals (PolicyGuided.v, PropNewest.v) | SatGuided.v: a policy that only proposes literals true in a model g never meets a conflict and ends with g; the policy does so, because with a package the decision set has its undecided rivals, and propagation is complete |
| C81 | solve on two pools (PropUnrelated.v) | a valid installation, restricted to the packages the request leads to, is valid for the other pool; C15 |
| C82 | solve and solve_with_hint on a pool and the same pool with more packages behind (Unrelated.v, SatAgree.v, PropUnrelated.v) | relational: every function of the solver, called with related ids only, has the same outcome with both pools (Unrelated.v); two policies equal wherever they are asked give the same run (SatAgree.v) |
| C83 | solve and satisfy_requirements on requests made by requirements_from_packages (PropLock.v) | the packages present are a valid installation (C16) holding a copy of every member; the copies alone are valid too, so nothing else is there (C70) |
| C84 | the functions of dependency_solver.py with the state of one-shot iterators (Iterables.v) | direct, from the empty request being solved by the empty transaction and the empty pool providing nothing |
| C85 | the states between the operations of a transaction (PropCrash.v) | removals come first, so an intermediate state is part of the old or of the new packages; C28 for dependencies; C15, C16 for the second attempt |
| C86 | histories of requests and interruptions (PropHistory.v) | induction over the history; each step by C16 and the order of operations (C85) |
| C87 | scripts/scenario_to_dimacs.py with `--solve`, tools/minisat_helpers.py, any other SAT solver as a parameter (External.v, SpecExternal.v) | FinalProofs.v uses a solution of the rules, not the run that found it (`solved`); the answer text is read back (ExternalProofs.v); a brute-force solver shows that correct solvers exist |
| C88 | policy_logger.py, the texts (LogText.v, SpecLogText.v) | the words of every line are computed; header lines, decisions, changes and BACKTRACKED are told apart by their words, so reading is by induction on the lines (LogTextProofs.v) |
| C89 | undetermined_clause_policy.py (Policy.v, SpecChoice.v) | invariant of a policy object with its history: the decision set contains the variables undetermined at the last refresh that have been open since (PropChoice.v) |
| C90 | .github/actions: main loop of upload_assets.py, retry.py, verify_release (Release.v) | server = map from names to contents; induction on the folder, on the sequence of interrupted runs, on the rounds (PropRelease.v) |
| C91 | test_utils.py: packages_from_definition, pool_and_repository_from_packages, generate_rules_for_requirement (TestUtils.v) | SpecTestUtils.v says what the lines of a text are; induction on the text; C61 for each line, C19 and C15 for the rules (PropTestUtils.v) |
| C92 | ConstraintModifiers: as_set, constructor, update, remove, targets, asdict (ModifierObj.v, Constraints.v) | induction on the calls from the last one; C40_modified_accepts for both modifiers; sorting (PropModifierObj.v) |
| C93 | files for Composer: json.dumps(indent=4), scenario_to_php_template_variables (ComposerFile.v) | grammar of JSON as a relation (SpecJsonValue.v); what is written is read back, by induction on the value, and uniquely, by induction on the grammar; C76 for the entries (PropComposerFile.v) |
| C94 | timed_context and the three timers of DependencySolver (Timing.v) | solve with a clock and state for the timers; one call by cases, histories by induction from the last call (PropTiming.v) |
| C95 | solve with its loops (all the models above) | every function classified by the exceptions it may raise; rules: C20, SAT: bound on rounds with the variables among the pool's ids, pruning: unvisited ids decrease (PropEnds.v) |

## 4. Trusted base

* Coq 8.16.1's kernel (and its virtual machine, used by `vm_compute` in the examples and refutations).
* `Print Assumptions` says "Closed under the global context" for every theorem named in MANIFEST.json (see the output of
  the build). The library axioms `vcheck` lists (`Coq.ssr.ssrunder.Under_rel...`) are part of ssreflect's
  implementation module that std++ loads; no theorem here depends on them.
* The reading of the Python code: the tie between code and model is the citation in each definition's comment.
* Python semantics assumed: dict/OrderedDict keep insertion order; `sorted`/`list.sort` are stable; `max` returns the first maximal
  element; sets iterate in some order that is a permutation of their elements (`env_ok`); hashing is consistent with equality;
  tuples compare lexicographically; no recursion limit (the code recurses in `minimal_unsat` and graph functions only), unlimited memory.

## 5. Coverage

Modelled: `sat/assignment_set.py`, `sat/clause.py`, `sat/minisat.py` (incl. the UNSAT report), `sat/__init__.py`,
`sat/policy/*.py`, `constraints/{kinds,multi,requirement,parser,package_parser,constraint_modifiers}.py`, `examples/van_der_waerden.py`,
`package.py` (as data), `repository.py`, `pool.py`, `request.py`, `rules_generator.py`, `transaction.py`,
`dependency_solver.py`, `compute_dependencies.py`, `utils/graph.py`, `utils/_collections.py`, `utils/_composer_utils.py`, `test_utils.py` (Scenario), `utils/timed_context.py`, `errors.py`; the texts of rules, reports, transactions and hints (C68, C69); the sharing of pool, requests and modifiers objects in a session (C66).

Not modelled:
`test_utils.py` except scenario files after YAML loading and definition texts (C91), `scripts/` except `scenario_to_dimacs.py`, `tools/` except `minisat_helpers.py`, `old/`, `.github/` except the main loop of `upload_assets.py`, `retry.py` and `verify_release`, the report functions of
`debug`/logging output, `__repr__` and other error messages, one-shot iterators passed where the code iterates twice (except to the functions of `dependency_solver.py`, C84).

## 6. Findings (behaviour of the code a user would not expect)

1. `add_clause([])` is ignored: a problem with an empty clause is reported satisfiable (C07).
2. `sat.is_satisfiable` returns True for every input on which it returns (C08).
3. With virtual `provides`, pruning can drop needed dependencies (C17), a fulfilled request may still install something (C23), pretty operations merge wrongly or raise (C50), `packages_are_consistent` is wrong (C47).
4. With `use_pruning=False` unrelated packages are installed (C18).
5. Strict mode raises TypeError for an installed package with a missing dependency (C21).
6. Cyclic dependencies among *rejected* candidates make `solve` raise ValueError (C30).
7. `transitive_neighbors` is incomplete on cyclic graphs, hence so are transitive dependencies (C31, C34).
8. `upgrade` can downgrade (C44).
9. The predicates of `dependency_solver` return a namedtuple that is always true as a condition (C47).
10. `satisfy_requirements` with default modifiers raises TypeError (C48).
11. `simplify_requirements` does not give equivalent requirements in general (C49).
12. `allow_newer` on `^=` with a build number rejects newer builds (C40).
13. The order of a repository depends on the order of addition for packages of equal name and version (C35).
14. `minimal_unsatisfiable_subset` on an empty unsatisfiable input recurses forever.
15. A package that only itself provides one of its dependencies cannot be installed: the rule generated is (-A).
16. A remove job for a name that is not installed can end in KeyError (C45), and for an unknown name in NoPackageFound.
17. `validate` treats None as False; deleting through a negative key mislogs (C11).
18. `str(requirement)` with two or more version constraints is not accepted by the parser (C55); `^=` loses its build number.
19. The unsat report is not an unsatisfiable core, may omit the job and may be empty (C51); the direction of "X conflicts with Y" depends on ids (C53).
20. Package names that contain "-" make the solver raise InvalidConstraint (C57); "a-1-2" is read as version "1-2" of "a" (C54).
    The documentation of `PackageMetadata` uses such a name (numpy-nomkl).
21. `PackageRule._from_string` always raises ValueError; `_from_string(">=")` is a requirement on a package named ">="; a constraint string "1.0" gives AssertionError (C55, C56).
22. Packages of the pool that compare equal but provide different names are confused (C58).
23. With two installed packages of equal version the hash seed decides which one is removed (C59).
24. Strict mode decides by the number of requirements whether a missing dependency comes from a job: a package with a missing dependency is not reported if another job reached it first as a dependency (C21_order_refuted).
25. `package_to_pretty_string` drops dependencies without constraint strings and turns alternatives into conjunctions; `parse` ignores all but the last block of a kind, unparenthesised blocks, and what follows "-" in a name (C61). Braces in the dependencies become part of a template that is formatted (package_parser.py 115-130): the text may differ or an exception be raised; C61 excludes them.
26. The report of `PolicyLogger` omits the last decision, never marks installed packages (no policy has an attribute `_installed_ids`) and prints BACKTRACKED only if some variable lost its value between two decisions, not whenever a decision was undone (C63).
27. The header of the DIMACS export counts the variables instead of giving the largest one (C64).
28. The scripts `scenario_to_dimacs.py`, `solve.py` and `print_rules.py` cannot work with the present signatures: they pass `policy=` to DependencySolver or `prefer_installed=` to the policy (TypeError), or unpack two of the three results of `_create_rules_and_initialize_policy` (ValueError) (C64_script_refuted). `index_to_yaml.py` reads an attribute `key` that packages do not have.
29. A second upgrade right after a successful one may raise SatisfiabilityError: the dependencies the first one installed are now installed packages for which the newest version is asked (C65_upgrade_refuted).
30. `test_utils.generate_rules_for_requirement` passes an unknown keyword `installed_map` to RulesGenerator (TypeError).
31. `solve` overwrites `pool.modifiers`; a pool made with modifiers loses them at the first solve, and afterwards shares the modifiers object of the request (C66_modifiers_refuted).
32. `pool.name_to_packages` of an unknown name inserts it, after which a solve that relaxes this name may raise NotImplementedError (C66_lookup_refuted).
33. `add_repository` is not atomic: after InvalidConstraint the packages up to and including the offending one are in the pool (C66_failed_add_refuted).
34. A scenario file cannot ask for an upgrade (TypeError); a marked package that is listed twice, or with a constraint, is not forgotten when it is asked for (C67).
35. Printed rules about broken and conflicting packages show a package with a "+" although it is ruled out ("+a-1 was ignored ..."; the comment in the code says that the sign is trimmed) (C68).
36. Asked to remove one version of an installed package, `solve` installs another version of it, although nothing needs it (C70_remove_refuted).
37. A new version of a package that cannot be installed makes a hard update that could be met before unsatisfiable (C71_hard_update_refuted).
38. `allow_newer` can make a solvable request unsatisfiable, if a dependency says `^=` with a build number (C71_modifiers_refuted).
39. The SAT solver object is not incremental: a clause added after a solution is ignored or wrongly reported unsatisfiable; without `_setup_assignments` the answer is empty; a search below a contradictory assumption ends in AssertionError (C73).
40. `repository.update(repository)` never ends; a loop that adds to the repository it iterates skips and repeats packages (C74).
41. An unpickled DefaultOrderedDict raises TypeError for missing keys; its deepcopy loses sharing (C75).
42. Composer export: `==`, `!=` and `^=` in requests raise ValueError, update jobs KeyError, upgrade AttributeError; dependencies with `>=`, `<`, ... raise NotImplementedError; different versions can get the same text (C76).
43. `requirement == None` raises AttributeError, as does comparing an upgrade job with another job, or a package with a requirement of the same name; `requirement == repository_info` may be False while `repository_info == requirement` raises; requirements of different classes are equal although a pool with modifiers treats them differently (C77).
44. `packages_from_requirements` (hence `requirements_are_complete` and `simplify_requirements`) raises TypeError if one package is available from two repositories (C78).
45. If not all installed packages can be kept, those with the lowest version numbers are, whatever they are versions of: two packages may be removed where removing one would do (C79_fewest_refuted).
46. A dependency may be installed in an old version although a newer one fits everything else that is installed: the policy also decides for packages that nothing needs, the highest version number first, and pruning drops them only afterwards (C80_each_newest_refuted).
47. Adding a repository with unrelated packages in front of the others can change which packages are installed: ids shift, and between candidates of the same version the policy takes the first in the order of a set of ids (C82_front_refuted). Behind the others it changes nothing (C82_same).
48. A package of the exact name and version that was asked for need not be installed: a package of another name that virtually provides the name in the same version is taken instead or in addition (C83_virtual_refuted); so exact requirements do not pin a package that has virtual providers.
49. Generators as arguments: `requirements_are_complete(packages, <generator>)` is always True, `packages_are_consistent(<generator>)` always raises NoPackageFound, `simplify_requirements(<generator>, reqs)` does not simplify (C84).
50. An upgrade that is interrupted after removing old versions and started again does not install the new versions (C85_upgrade_refuted); packages that stay may lack a dependency between the removal of the old and the installation of the new version (C85_example).
51. Solving an exported problem with another SAT solver may remove installed packages that no rule is about: a solver like minisat also prints a value for them (C87_keeps_refuted). For an unsatisfiable problem the script fails with ValueError instead of saying so (C87_unsat).
52. UndeterminedClausePolicy suggests packages whose clauses are all true already before undetermined ones: its set is refreshed only when a new key is assigned or the set is used up, not when clauses become true (C89_stale_refuted; the class documentation says otherwise).
53. upload_assets.py replaces an asset by deleting it and uploading the new file: killed in between, it leaves the release without the file (C90_gap_refuted; a further run repairs it, C90_crash). verify_release never raises the ValueError it is written to raise: sleeping_retry raises AssertionError first (C90_verify), and the bound of 60 s on the pauses can never matter: there are at most eight checks (C90_eight).
54. A repository that cannot be exported to Composer leaves an empty file behind, also where a good file was before: the file is opened for writing before the entries are made (C93_failure, C93_example).
55. The timers of a solver are not reset: after a call that fails early, `_last_solve_time` and the others still tell about an earlier call (C94_stale_refuted). A timer that has not been run prints "nan" instead of the message the code has for it (C94_not_run_refuted).
56. Read off the text, without a theorem: `scripts/solve.py` always ends in TypeError (it passes `prefer_installed` and `policy` to constructors that do not take them) and `scripts/print_rules.py` in ValueError (it unpacks three results into two names), so neither prints anything about a scenario that can be loaded.
