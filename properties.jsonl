{"id": "C01", "title": "A returned SAT solution satisfies every clause", "statement": "If MiniSATSolver.from_rules(rules, policy) followed by search() returns an assignment, then every clause that was added contains a literal that is true in that assignment.", "quantifier": "every finite list of non-empty clauses over non-zero integers (any sizes, repeated literals, tautologies) and every decision policy that proposes undecided variables", "why_tests_cant": "The result depends on the interleaving of propagation, learning and backjumping; tests see a few formulas and the shipped policies only.", "anchors": ["simplesat/sat/minisat.py: MiniSATSolver.search, propagate, analyze, record", "simplesat/sat/clause.py: Clause.rewatch"]}
{"id": "C02", "title": "SatisfiabilityError means the clauses are unsatisfiable", "statement": "If adding the clauses or search() raises SatisfiabilityError, no truth assignment satisfies all the clauses.", "quantifier": "every finite clause list and every policy", "why_tests_cant": "Needs a proof that every learned clause is entailed, for all conflict graphs; a test can only confirm a few known-UNSAT formulas.", "anchors": ["simplesat/sat/minisat.py: MiniSATSolver.add_clause, analyze, search"]}
{"id": "C03", "title": "search() always terminates with one of the two documented outcomes", "statement": "search() terminates, and either returns an assignment or raises SatisfiabilityError; no assertion, KeyError, IndexError or TypeError can escape from the solver. With n variables (in the clauses or known to the policy) it ends after less than 2^(n+1) rounds, each a conflict, a decision or the last one, and propagates at most n literals in each.", "quantifier": "every finite clause list and every policy that proposes undecided variables from a finite universe", "why_tests_cant": "Non-termination and internal crashes on rare conflict shapes cannot be excluded by running finitely many formulas.", "anchors": ["simplesat/sat/minisat.py: MiniSATSolver.search, analyze, cancel_until, record, undo_one", "simplesat/sat/minisat.py: UNSAT.__init__"]}
{"id": "C04", "title": "A returned solution is total and consistent", "statement": "The assignment returned by search() gives True or False to every variable occurring in the clauses, and the value of -v is always the negation of the value of v.", "quantifier": "every clause list and policy", "why_tests_cant": "Quantifies over all search histories.", "anchors": ["simplesat/sat/minisat.py: search", "simplesat/sat/assignment_set.py: AssignmentSet"]}
{"id": "C05", "title": "Search never changes the problem", "statement": "At every point of the search every clause held by the solver is a logical consequence of the added clauses, and every added clause is still held with exactly its original set of literals (only the order may change).", "quantifier": "every state reachable during search, every policy", "why_tests_cant": "Clause objects are mutated in place and shared between watch lists, reasons and the clause list; only an invariant over all reachable states can rule out corruption.", "anchors": ["simplesat/sat/clause.py: Clause.rewatch", "simplesat/sat/minisat.py: record, propagate"]}
{"id": "C06", "title": "Solutions are lexicographically optimal for the policy's priority order", "statement": "If the policy always proposes the first undecided variable of a fixed priority list before anything else, then the returned solution is lexicographically greatest on that list among all models: no model agrees with it on a prefix and sets the next listed variable True where the solution has it False.", "quantifier": "all clause sets, priority lists and policies respecting the list", "why_tests_cant": "An optimality statement over all models of all formulas; backjumping could reorder decisions in ways a test does not exercise.", "anchors": ["simplesat/sat/minisat.py: search, cancel_until", "simplesat/sat/policy/undetermined_clause_policy.py"]}
{"id": "C07", "title": "Empty clauses are ignored (and not treated as false)", "statement": "Expected: after add_clause([]) search() returns no solution. This is false: an empty clause is ignored, so from_rules([[]]) is reported satisfiable; solutions and SatisfiabilityError are exactly those of the problem without its empty clauses.", "quantifier": "every solver history containing an empty clause", "why_tests_cant": "The shipped test only inspects the status flag, not what search does with it.", "anchors": ["simplesat/sat/minisat.py: add_clause (status), search"]}
{"id": "C08", "title": "is_satisfiable does not answer satisfiability", "statement": "Expected: is_satisfiable(rules) is True iff the rules have a common model. This is false: the helper returns True for every input on which it returns at all, also for unsatisfiable ones.", "quantifier": "every rule list", "why_tests_cant": "Needs a comparison with semantic satisfiability for all inputs.", "anchors": ["simplesat/sat/__init__.py: is_satisfiable"]}
{"id": "C09", "title": "validate() is exactly model checking", "statement": "MiniSATSolver.validate(m) returns True iff every held clause contains a literal made true by m (missing/None counting as false).", "quantifier": "all clause sets and all assignment maps", "why_tests_cant": "Universal over maps and clauses.", "anchors": ["simplesat/sat/minisat.py: validate"]}
{"id": "C10", "title": "AssignmentSet behaves as a finite partial map from variables to booleans", "statement": "After any sequence of item assignments (True/False/None) and deletions through positive or negative keys, of get_changelog and consume_changelog calls, and of replacing the collection by its copy(), value(v)/value(-v), len, containment, num_assigned, assigned_ids, unassigned_ids, items and get agree with the obvious abstract map updated in the same order.", "quantifier": "every finite history of operations", "why_tests_cant": "The class keeps five redundant containers in sync; a history property.", "anchors": ["simplesat/sat/assignment_set.py: AssignmentSet"]}
{"id": "C11", "title": "The assignment changelog is the exact net difference", "statement": "get_changelog() returns exactly the variables whose value differs from the value they had at the last consume_changelog(), with (old, new) values; new_keys are the keys added since then.", "quantifier": "every history of updates through positive keys, get_changelog and consume_changelog calls, and copies", "why_tests_cant": "History property with caching; tests cover a few histories.", "anchors": ["simplesat/sat/assignment_set.py: _update_diff, get_changelog, consume_changelog"]}
{"id": "C12", "title": "The default dependency policy always proposes an undecided package", "statement": "UndeterminedClausePolicy.get_next_package_id (also through its logging wrapper) returns a positive package id that is currently unassigned whenever some known variable is unassigned, and does not change any assignment.", "quantifier": "every assignment, clause list, internal policy state reachable, every set iteration order", "why_tests_cant": "The policy caches a decision set between calls; staleness is a history property.", "anchors": ["simplesat/sat/policy/undetermined_clause_policy.py", "simplesat/sat/policy/policy_logger.py", "simplesat/sat/policy/policy.py: DefaultPolicy"]}
{"id": "C13", "title": "Installed packages are kept whenever that is possible", "statement": "If there is a solution of the generated rules that keeps every installed package (outside those named by soft_update jobs), then the solver's solution keeps all of them, so the transaction removes or replaces none of them.", "quantifier": "all pools, requests, installed repositories; package names are words separated by dots (other names: see C57), and packages that compare equal are identical", "why_tests_cant": "Optimality over all solutions.", "anchors": ["simplesat/sat/policy/undetermined_clause_policy.py", "simplesat/dependency_solver.py: DependencySolver.solve"]}
{"id": "C14", "title": "The newest acceptable version is chosen when it fits", "statement": "If the newest undecided candidate of the request is compatible with keeping what is installed, the solution installs it (or a package of the same name and version, if these carry the same metadata).", "quantifier": "all pools and requests (candidate versions pairwise distinct); package names are words separated by dots (other names: see C57), and packages that compare equal are identical", "why_tests_cant": "Optimality over all solutions.", "anchors": ["simplesat/sat/policy/undetermined_clause_policy.py: _best_candidate"]}
{"id": "C15", "title": "SatisfiabilityError from solve means no valid installation exists", "statement": "If solve(request) raises SatisfiabilityError then no set of packages of the pool satisfies all jobs, is closed under dependencies (after constraint modification), contains at most one package per name and no declared conflict.", "quantifier": "every pool, installed repository, request, modifiers; package names are words separated by dots (other names: see C57), and packages that compare equal are identical", "why_tests_cant": "Completeness of the encoding for all package universes.", "anchors": ["simplesat/rules_generator.py: RulesGenerator.iter_rules", "simplesat/dependency_solver.py: solve"]}
{"id": "C16", "title": "The result of solve is a valid installation", "statement": "Applying the returned transaction to the installed packages gives a set that satisfies every job, is dependency-closed, has at most one package per name and no declared conflict.", "quantifier": "every pool without virtual provides whose same name+version twins carry the same metadata, every installed repository contained in the pool, every request whose remove jobs name installed packages or rule out all versions of what they name, pruning on; package names are words separated by dots (other names: see C57), and packages that compare equal are identical", "why_tests_cant": "End-to-end over all universes.", "anchors": ["simplesat/dependency_solver.py: solve, _connected_packages", "simplesat/transaction.py: Transaction", "simplesat/rules_generator.py"]}
{"id": "C17", "title": "Pruning keeps every needed dependency (with virtual provides)", "statement": "With use_pruning=True, if no name is provided by packages of two different names, the transaction never drops a package needed by a package it keeps or installs (part of C16). With virtual provides this is false: a concrete request installs a package without the dependency that was selected for it.", "quantifier": "every pool including packages with provides; package names are words separated by dots (other names: see C57), and packages that compare equal are identical", "why_tests_cant": "Name collisions among selected providers are rare in fixtures.", "anchors": ["simplesat/dependency_solver.py: _connected_packages"]}
{"id": "C18", "title": "Without pruning the installed set need not be dependency-closed", "statement": "With use_pruning=True the installed set is dependency-closed (C16). With use_pruning=False this is false: variables the rules say nothing about are decided True, so unrelated packages are installed, with their dependencies missing.", "quantifier": "every pool and request; package names are words separated by dots (other names: see C57), and packages that compare equal are identical", "why_tests_cant": "Packages that occur in a rule without having rules themselves are only reached in unusual graphs.", "anchors": ["simplesat/rules_generator.py: _add_install_requires_rules, _add_conflicts_rules", "simplesat/dependency_solver.py: solve"]}
{"id": "C19", "title": "Every selected package that was explored is consistent with the metadata", "statement": "In any model of the generated rules, every selected package whose rules were generated has each dependency satisfied by another selected package (whose rules were also generated), shares its name with no other selected package and conflicts with no selected package; and all job constraints hold.", "quantifier": "all pools, requests, models; package names are words separated by dots (other names: see C57), and packages that compare equal are identical", "why_tests_cant": "Soundness of the encoding for all universes.", "anchors": ["simplesat/rules_generator.py: RulesGenerator"]}
{"id": "C20", "title": "Rule generation terminates and explores exactly the reachable packages", "statement": "iter_rules() terminates and generates rules for exactly the packages reachable from the request's candidates and the names of installed packages through dependencies of non-broken packages.", "quantifier": "all pools (cyclic dependency graphs included) and requests; package names are words separated by dots (other names: see C57), and packages that compare equal are identical", "why_tests_cant": "Termination on cyclic graphs and exactness need induction.", "anchors": ["simplesat/rules_generator.py: _add_package_rules, _add_install_job_rules, _add_installed_package_rules"]}
{"id": "C21", "title": "Strict mode reports missing packages of the packages asked for, and nothing undocumented", "statement": "With strict=True and nothing installed, rule generation raises only MissingInstallRequires, MissingConflicts, NoPackageFound, InvalidConstraint (alternatives in metadata) or NotImplementedError. MissingInstallRequires (MissingConflicts) is raised in strict mode only, and only if a job asks directly for a package with a dependency (conflict) that no package of the pool meets. Conversely strict mode fails if a job asks directly for such a package and nothing in the pool depends on it. Without that last condition it may succeed, depending on the order of the jobs. With installed packages the first sentence is false: an installed package with a missing dependency gives TypeError.", "quantifier": "every pool/installed repository with missing dependencies; package names are words separated by dots (other names: see C57), and packages that compare equal are identical", "why_tests_cant": "Depends on where in the universe the broken package sits.", "anchors": ["simplesat/rules_generator.py: _add_install_requires_rules, _add_conflicts_rules (len(requirements))"]}
{"id": "C22", "title": "Constraint modifiers never affect the request's own requirements", "statement": "The set of candidates for a job depends only on the job's requirement, not on the modifiers; modifiers only relax package dependencies.", "quantifier": "all modifiers, requirements and pools", "why_tests_cant": "Universal.", "anchors": ["simplesat/pool.py: what_provides(use_modifiers)", "simplesat/rules_generator.py: _add_install_job_rules", "simplesat/dependency_solver.py: _create_rules_and_initialize_policy"]}
{"id": "C23", "title": "A request already fulfilled by a consistent installation gives an empty transaction", "statement": "If the installed set is valid and already satisfies every job, no name is provided by packages of two names, remove jobs name something installed or rule out every version of what they are about, and no soft update job names an installed package, solve (with pruning, the default) returns a transaction without operations. With virtual provides this is false.", "quantifier": "all pools without virtual provides; package names are words separated by dots (other names: see C57), and packages that compare equal are identical", "why_tests_cant": "Universal over universes.", "anchors": ["simplesat/dependency_solver.py: solve", "simplesat/transaction.py"]}
{"id": "C24", "title": "Dropping jobs keeps a request satisfiable; the empty request is always satisfiable", "statement": "If the rules of a request are satisfiable, so are the rules of any sub-list of its jobs; the rules of a request without jobs are always satisfiable.", "quantifier": "all pools and requests; package names are words separated by dots (other names: see C57), and packages that compare equal are identical", "why_tests_cant": "Monotonicity is what minimal_unsatisfiable_subset relies on; it ranges over all sub-requests.", "anchors": ["simplesat/rules_generator.py", "simplesat/dependency_solver.py: solve_with_hint"]}
{"id": "C25", "title": "minimal_unsatisfiable_subset returns a minimal unsatisfiable subset", "statement": "For a monotone callback under which the empty set is satisfiable and the input is not, the result is a sub-list of the input, is unsatisfiable, and becomes satisfiable when any one element is removed; a satisfiable input raises UnexpectedlySatisfiable; the recursion terminates.", "quantifier": "every input sequence and every monotone callback", "why_tests_cant": "Universal over callbacks.", "anchors": ["simplesat/dependency_solver.py: minimal_unsatisfiable_subset"]}
{"id": "C26", "title": "solve_with_hint names a minimal set of conflicting jobs", "statement": "When solve_with_hint raises SatisfiabilityErrorWithHint, the listed jobs are jobs of the request, are jointly unsatisfiable and every proper subset of them is satisfiable.", "quantifier": "all pools and requests; package names are words separated by dots (other names: see C57), and packages that compare equal are identical", "why_tests_cant": "Universal.", "anchors": ["simplesat/dependency_solver.py: solve_with_hint"]}
{"id": "C27", "title": "The transaction is exactly the difference between installed and decided packages", "statement": "operations consist of one RemoveOperation for each installed package decided against and one InstallOperation for each not-installed package decided for - except that a package with the same name and version as an installed one is not reinstalled and that installed one is not removed - all removals before all installs, nothing twice.", "quantifier": "all pools, decision sets, installed sets with an acyclic graph; package names are words separated by dots (other names: see C57), and packages that compare equal are identical", "why_tests_cant": "Universal set equality plus ordering.", "anchors": ["simplesat/transaction.py: Transaction._safe_operations"]}
{"id": "C28", "title": "Operations are ordered so that dependencies are respected at every step", "statement": "Each package is installed after all its installed-by-this-transaction dependencies, and each package is removed before the packages it depends on that are also removed.", "quantifier": "all acyclic decision graphs; package names are words separated by dots (other names: see C57), and packages that compare equal are identical", "why_tests_cant": "Ordering property over all graphs.", "anchors": ["simplesat/transaction.py: _safe_operations", "simplesat/utils/graph.py: toposort"]}
{"id": "C29", "title": "toposort yields a correct layering or reports a cycle", "statement": "toposort(g) terminates; it raises ValueError iff g (self-loops ignored) has a cycle; otherwise its groups partition the nodes and every node's edges point to strictly earlier groups, and each node sits in the earliest possible group.", "quantifier": "every finite directed graph", "why_tests_cant": "Universal over graphs.", "anchors": ["simplesat/utils/graph.py: toposort"]}
{"id": "C30", "title": "Solve answers on acyclic pools", "statement": "If the dependencies among the packages of the pool are acyclic (after modifiers) and metadata and jobs can be interpreted, solve terminates and returns a transaction or raises SatisfiabilityError, nothing else, and so decides whether a valid installation exists. Acyclicity of the packages that are installed is not enough: rejected candidates that form a cycle make solve raise ValueError. Without the assumption about cycles, but with the others, the only further outcome is ValueError, and it occurs only if there is a cycle among the packages of the pool.", "quantifier": "all pools and requests; package names are words separated by dots (other names: see C57), and packages that compare equal are identical", "why_tests_cant": "The cycle may run through rejected candidates only.", "anchors": ["simplesat/transaction.py: _safe_operations", "simplesat/utils/graph.py: package_lit_dependency_graph"]}
{"id": "C31", "title": "transitive_neighbors computes reachability", "statement": "On graphs without cycles (other than self-loops) transitive_neighbors(g)[n] is exactly the set of nodes reachable from n by one or more edges; on all graphs it contains only reachable nodes. On cyclic graphs it is incomplete.", "quantifier": "every finite directed graph, cyclic ones included", "why_tests_cant": "Memoised recursion over in-progress nodes; only some cyclic graphs are affected.", "anchors": ["simplesat/utils/graph.py: transitive_neighbors, _transitive"]}
{"id": "C32", "title": "connected_nodes computes reachability", "statement": "connected_nodes(n, f, visited) returns exactly visited plus the nodes reachable from n avoiding expansion of already visited nodes, and terminates when the reachable set is finite, for every queue order.", "quantifier": "all neighbour functions with finite reach, all pop orders", "why_tests_cant": "Universal over graphs and set orders.", "anchors": ["simplesat/utils/graph.py: connected_nodes"]}
{"id": "C33", "title": "breadth_first_search yields a shortest path to each reachable target once", "statement": "Every yielded path starts at start, follows neighbour edges, ends in a target, is a shortest such path, and every reachable target is yielded exactly once.", "quantifier": "all finite graphs and target sets", "why_tests_cant": "Universal over graphs.", "anchors": ["simplesat/utils/graph.py: breadth_first_search, backtrack"]}
{"id": "C34", "title": "compute_dependencies and compute_reverse_dependencies are exact and converse", "statement": "compute_dependencies (non-transitive) returns exactly the packages matching a dependency of a package that satisfies the requirement, compute_reverse_dependencies exactly the packages with a dependency matched by such a package; the two relations are converse; with transitive=True the results are the closures if dependencies are acyclic (incomplete otherwise). compute_leaf_packages returns exactly the packages p such that nothing depends on any package of p's version that provides p's name; so without virtual provides (and with one package per name and version) exactly the packages nothing depends on. With virtual provides a package nothing depends on can be missing (refuted).", "quantifier": "all repositories and requirements", "why_tests_cant": "Universal.", "anchors": ["simplesat/compute_dependencies.py"]}
{"id": "C35", "title": "A repository is an order-normalised multiset of packages", "statement": "Iterating a repository yields exactly the added packages with multiplicity, sorted by name then version; len, containment and find_packages agree. The order does not depend on the order of addition if packages of equal name and version are equal; otherwise these stay in order of addition.", "quantifier": "every sequence of additions", "why_tests_cant": "History/permutation property.", "anchors": ["simplesat/repository.py: Repository"]}
{"id": "C36", "title": "find_package returns a package with that name and version iff one was added", "statement": "find_package(name, version) returns the first added package with exactly this name and version and raises NoPackageFound iff there is none; find_packages is sorted by version.", "quantifier": "every history of additions", "why_tests_cant": "Universal.", "anchors": ["simplesat/repository.py: find_package, find_packages"]}
{"id": "C37", "title": "Pool ids are positive, dense, unique and stable", "statement": "Ids are 1..n in order of addition; package_id followed by id_to_package gives back an equal package; adding repositories never changes id_to_package of existing ids.", "quantifier": "every sequence of add_repository", "why_tests_cant": "History property.", "anchors": ["simplesat/pool.py: Pool.add_repository, package_id, id_to_package"]}
{"id": "C38", "title": "what_provides returns exactly the matching providers", "statement": "what_provides(r) is the list, in order of addition, of the packages that provide r.name and whose version matches the (modified) requirement.", "quantifier": "all pools, requirements, modifiers", "why_tests_cant": "Universal.", "anchors": ["simplesat/pool.py: what_provides"]}
{"id": "C39", "title": "Constraint kinds denote the right version sets", "statement": "matches() of ==, !=, >=, >, <=, <, ^=, * decides exactly the corresponding relation on versions, and a requirement matches iff all its constraints do.", "quantifier": "all versions and constraint lists", "why_tests_cant": "Universal over versions.", "anchors": ["simplesat/constraints/kinds.py", "simplesat/constraints/multi.py", "simplesat/constraints/requirement.py: matches"]}
{"id": "C40", "title": "allow_newer / allow_older / allow_any only relax", "statement": "A version matching a requirement also matches the modified requirement, and the modified requirement additionally accepts every newer (resp. older, any) version except those excluded by !=, provided ^= constraints are written without build number. With a build number in ^= this is false for allow_newer.", "quantifier": "all requirements, versions, modifiers", "why_tests_cant": "Universal over versions; boundary builds are easy to miss.", "anchors": ["simplesat/constraints/constraint_modifiers.py"]}
{"id": "C41", "title": "Modifiers touch only their target packages and only install requirements", "statement": "A requirement whose name is in no modifier set is returned unchanged; a conflict requirement is never silently changed (NotImplementedError instead).", "quantifier": "all requirements and modifiers", "why_tests_cant": "Universal.", "anchors": ["simplesat/constraints/constraint_modifiers.py: modify_requirement"]}
{"id": "C42", "title": "A request holds an upgrade job only alone", "statement": "After any sequence of Request calls, either there is no upgrade job or it is the only job; a rejected call raises ValueError and leaves the request unchanged. If the first job call is upgrade it is the only job, otherwise the jobs are those of all install, remove and update calls, in order; the modifiers are those the request was made with, plus exactly the names given to allow_newer, allow_any and allow_older.", "quantifier": "every history of calls", "why_tests_cant": "History property.", "anchors": ["simplesat/request.py: Request._add_job"]}
{"id": "C43", "title": "upgrade moves every installed package to the newest remote version", "statement": "solve of an upgrade request is solve of the request installing, for each installed package with a remote candidate, exactly its newest remote version; so in the result every such package has that version.", "quantifier": "all installed/remote repositories; package names are words separated by dots (other names: see C57), and packages that compare equal are identical", "why_tests_cant": "Universal.", "anchors": ["simplesat/dependency_solver.py: _convert_upgrade_request_if_needed"]}
{"id": "C44", "title": "upgrade does not downgrade unless the installed version is newer than all remote ones", "statement": "An upgrade request (with pruning, the default) never replaces an installed package by an older version if no installed version is newer than all remote ones of that name, no name is provided by packages of two names, and installed packages carry the metadata of the repository's. Without the first condition this is false: upgrade installs the newest remote version, even if it is older.", "quantifier": "all installed/remote repositories; package names are words separated by dots (other names: see C57), and packages that compare equal are identical", "why_tests_cant": "Only visible when an installed version is newer than everything remote.", "anchors": ["simplesat/dependency_solver.py: _convert_upgrade_request_if_needed"]}
{"id": "C45", "title": "hard_update and remove jobs do what they say", "statement": "After a successful solve, the newest candidate of each hard_update job is installed and no candidate of a remove job is. A remove job about some, but not all, versions of a package of which no version is installed may make solve fail with KeyError (with pruning).", "quantifier": "all pools and requests; package names are words separated by dots (other names: see C57), and packages that compare equal are identical", "why_tests_cant": "Universal.", "anchors": ["simplesat/rules_generator.py: _add_update_job_rules, _add_remove_job_rules"]}
{"id": "C46", "title": "requirements_are_satisfiable decides satisfiability", "statement": "The is_satisfiable field is True iff some set of the given packages is a valid installation meeting all requirements.", "quantifier": "all package lists and requirement lists for which every requirement has a candidate and the dependency graph is acyclic; package names are words separated by dots (other names: see C57), and packages that compare equal are identical", "why_tests_cant": "Universal.", "anchors": ["simplesat/dependency_solver.py: requirements_are_satisfiable, packages_are_consistent, requirements_are_complete"]}
{"id": "C47", "title": "The predicates answer through their field, not through their truth value", "statement": "The field is_satisfiable of packages_are_consistent(...) and requirements_are_complete(...) tells exactly whether the documented condition holds (no virtual provides for the former). Used as booleans, as docs/source/api.rst does, the results are always true, since they are non-empty tuples.", "quantifier": "all inputs; package names are words separated by dots (other names: see C57), and packages that compare equal are identical", "why_tests_cant": "The tests only look at the named field.", "anchors": ["simplesat/dependency_solver.py: requirements_are_satisfiable", "docs/source/api.rst"]}
{"id": "C48", "title": "satisfy_requirements returns an installable set, also with default modifiers", "statement": "With modifiers given, satisfy_requirements returns packages that together are a valid installation meeting the requirements, dependencies first, or raises SatisfiabilityError (then there is none). With the default modifiers=None it raises TypeError.", "quantifier": "all inputs, including the default modifiers=None; package names are words separated by dots (other names: see C57), and packages that compare equal are identical", "why_tests_cant": "The tests always pass modifiers explicitly.", "anchors": ["simplesat/dependency_solver.py: satisfy_requirements", "simplesat/request.py: Request"]}
{"id": "C49", "title": "simplify_requirements returns an equivalent set of requirements", "statement": "If every name is offered in one version and dependencies are acyclic, a set of packages is a valid installation for the simplified requirements iff it is for the original ones. In general this is false: with several versions, or with cyclic dependencies, requirements are dropped that others do not imply.", "quantifier": "all package lists and requirements; package names are words separated by dots (other names: see C57), and packages that compare equal are identical", "why_tests_cant": "Universal; cycles and version ranges matter.", "anchors": ["simplesat/dependency_solver.py: simplify_requirements"]}
{"id": "C50", "title": "The pretty operations describe the same change", "statement": "If no package provides the name of another, pretty_operations mention exactly the packages of operations, each once; an update pairs the removal of one version with the installation of another version of the same package. With virtual provides this is false, and building them may even fail.", "quantifier": "all transactions over pools without virtual provides; package names are words separated by dots (other names: see C57), and packages that compare equal are identical", "why_tests_cant": "Universal.", "anchors": ["simplesat/transaction.py: _as_pretty_operations, _merge_operations"]}
{"id": "C51", "title": "The unsatisfiability report can always be built, from the problem's own rules", "statement": "After every SatisfiabilityError the report (rules, requirements, reason, to_string with or without the pool) is built without another exception; every rule it names is a rule of the problem and correctly explained (C53); every requirement is that of a job of the request; each printed clause is one of such a rule, none twice in one part; a part is a chain of clauses with common variables between two ends. The named rules need not be contradictory, and can even be none at all.", "quantifier": "all unsatisfiable problems and all search histories; package names are words separated by dots (other names: see C57), and packages that compare equal are identical", "why_tests_cant": "History property over recursive explanation of learned clauses.", "anchors": ["simplesat/sat/minisat.py: UNSAT", "simplesat/errors.py: SatisfiabilityError"]}
{"id": "C52", "title": "Requirements round-trip through constraint tuples", "statement": "from_constraints(r.to_constraints()) accepts exactly the same versions as r and has the same name; the result is equal to r when no ^= constraint carries a build number and r has at least one constraint.", "quantifier": "all requirements (given that version strings round-trip)", "why_tests_cant": "Universal.", "anchors": ["simplesat/constraints/requirement.py: to_constraints, from_constraints", "simplesat/constraints/parser.py"]}
{"id": "C53", "title": "Every rule carries a correct explanation", "statement": "Each generated rule says what its reason states (candidates of a job, one dependency of a package, two packages of one name, a declared conflict, a missing dependency), and its requirements are the chain that led from a job's requirement through dependencies to the package concerned, followed by the requirement the rule states; rules without requirements stem from installed packages only. The printed direction of a conflict may be reversed (false expectation).", "quantifier": "all repositories, modifiers, installed packages, requests and both modes; package names are words separated by dots (other names: see C57), and packages that compare equal are identical", "why_tests_cant": "The chain is passed along a work queue in which each package is expanded once, so it depends on the whole dependency graph and the order of jobs.", "anchors": ["simplesat/rules_generator.py: PackageRule.to_string, RulesGenerator._add_install_requires_rules, _add_conflicts_rules, _add_package_rules, _add_install_job_rules"]}
{"id": "C54", "title": "Package full names are split uniquely and correctly", "statement": "parse_package_full_name(s) returns (name, version) exactly when s is a name of dot-separated words, a '-' or white space, and a version (a dotted name starting with a digit, optionally '-' and a build), and raises SolverException for every other string; from_package_string('name-version') is the requirement of exactly this version. For names that contain a '-' this is false: 'a-1-2' is read as package 'a' of version '1-2'.", "quantifier": "every (ASCII) string", "why_tests_cant": "Universal over strings and over all ways a backtracking regular expression can match.", "anchors": ["simplesat/constraints/requirement.py: parse_package_full_name, from_package_string", "simplesat/constraints/parser.py: DISTRIBUTION_R, VERSION_R"]}
{"id": "C55", "title": "Requirement strings mean what the grammar says", "statement": "InstallRequirement._from_string(s) succeeds exactly for comma-separated parts 'name', 'name *' or 'name op version' that all have the same name, and gives the constraints in order; a bare name allows every version; every other string raises InvalidConstraint, InvalidDependencyString, AssertionError (only commas and blanks) or what the version factory raises. str(requirement) reads back as a requirement matching the same versions if there is at most one version constraint; with two or more it is always refused. Surprises: operators, '*' and versions are accepted as package names.", "quantifier": "every (ASCII) string, every version factory, every requirement", "why_tests_cant": "Universal over strings; the scanner's greedy and backtracking choices depend on the whole string.", "anchors": ["simplesat/constraints/parser.py: _tokenize, _RawRequirementParser.parse", "simplesat/constraints/requirement.py: _from_string, __str__"]}
{"id": "C56", "title": "Constraint strings of package metadata mean what the grammar says", "statement": "A constraint string parses exactly if it is blank (any version) or consists of comma-separated parts '*' or 'op version', and gives these constraints in order; from_constraints on metadata strings is the conjunction of what its strings say; otherwise InvalidConstraint, AssertionError or an error of the version factory. from_constraints(to_constraints()) through strings gives a requirement that matches the same versions.", "quantifier": "every (ASCII) string, every metadata value, every version factory", "why_tests_cant": "Universal over strings.", "anchors": ["simplesat/constraints/parser.py: _RawConstraintsParser.parse", "simplesat/constraints/requirement.py: from_constraints, to_constraints"]}
{"id": "C57", "title": "Packages with '-' in their name cannot be handled by the solver", "statement": "Expected: the solver treats packages alike whatever their name. This is false: package names are parsed as requirement strings during rule generation, and a name with '-' (that is not itself a version) raises InvalidConstraint. So with such a package installed solve answers no request at all, and with such a package among the candidates of an install job it does not answer that request.", "quantifier": "every pool, installed repository and request containing such a package", "why_tests_cant": "Whether the package's rules are generated depends on the whole request and installed repository.", "anchors": ["simplesat/rules_generator.py: _add_conflicts_rules", "simplesat/constraints/requirement.py: _from_string"]}
{"id": "C58", "title": "Packages that compare equal may still differ in what they provide", "statement": "Expected: requests are answered correctly in every pool. This is false if two packages of the pool compare equal but provide different names (equality of packages ignores provides): they share one id, and the solver may install the one that does not provide the wanted name. All properties about solve therefore assume that packages of the pool that compare equal are identical.", "quantifier": "pools with two equal packages that differ in provides", "why_tests_cant": "Depends on the order in which repositories were added to the pool.", "anchors": ["simplesat/package.py: PackageMetadata.__eq__, _key", "simplesat/pool.py: add_repository, package_id"]}
{"id": "C59", "title": "Reproducibility of the answer of solve", "statement": "Whether solve returns a transaction or raises SatisfiabilityError does not depend on the order in which Python iterates over sets. The transaction itself is only reproducible when versions break ties: (a) with the same order for sets of integers and any order for sets of packages (hash seed), two runs are identical if the installed packages have pairwise different versions; (b) with any order for any set, two runs that answer give the same transaction, operation by operation, if all packages of the pool have pairwise different versions. In general it is not reproducible: with two installed packages of the same version, the hash seed decides which one solve removes.", "quantifier": "every pool, installed repository and request; every iteration order of the sets used (every hash seed)", "why_tests_cant": "A test run sees one hash seed and one iteration order.", "anchors": ["simplesat/sat/policy/undetermined_clause_policy.py: UndeterminedClausePolicy.__init__, _best_candidate", "simplesat/dependency_solver.py: DependencySolver.solve", "simplesat/transaction.py: Transaction"]}
{"id": "C60", "title": "Logging a policy does not change the solution", "statement": "Wrapping a policy with the logger (LoggedPolicy) changes nothing observable: the search gives the same values for all variables, the same conflict, learned clause, clause trails and reasons, or the same exception as with the bare policy. This holds for the policy of the dependency solver, for DefaultPolicy, and for every policy whose suggestions do not depend on the changelog of the assignments.", "quantifier": "every set of clauses, every policy state", "why_tests_cant": "The logger consumes the changelog that policies read, so interference depends on the history of assignments.", "anchors": ["simplesat/sat/policy/policy_logger.py: PolicyLogger.get_next_package_id, LoggedPolicy", "simplesat/sat/assignment_set.py: get_changelog, consume_changelog"]}
{"id": "C61", "title": "Pretty package strings are read as written and survive a round trip", "statement": "PrettyPackageStringParser.parse_to_package reads 'name version; kind (name constraint, ...); ...' as the package with this name and version whose constraints of each kind are those of the last block of that kind, sorted by name, the constraints of one name in one conjunction in the order of the string ('depends' and 'install_requires' are one kind). It accepts no string that does not start with a name, spaces and a version up to the first ';', and raises only ValueError or what the version factory raises. parse_to_package(package_to_pretty_string(p)) is p for metadata that lists each name once, in order, with one non-empty conjunction of strings without ',', ')', braces and newlines. This fails for other metadata: a dependency without constraint strings disappears, alternatives become a conjunction; and when reading, an earlier block of the same kind is silently dropped and a name with '-' is cut at the '-'.", "quantifier": "every (ASCII) string of the grammar, every metadata value, every version factory", "why_tests_cant": "Universal over strings; regular expression search skips what it does not understand.", "anchors": ["simplesat/constraints/package_parser.py: PrettyPackageStringParser.parse, parse_to_package, package_to_pretty_string, constraints_to_pretty_strings, _parse_preamble"]}
{"id": "C62", "title": "The van der Waerden example is encoded and answered correctly", "statement": "For j, k >= 2 the clauses of van_der_waerden(j, k, n) are satisfied exactly by the binary sequences of length n without j equally spaced zeros and without k equally spaced ones; the SAT solver with the default policy returns such a sequence, or raises SatisfiabilityError and then every sequence of length n has one of the two.", "quantifier": "all j, k >= 2 and all n", "why_tests_cant": "Universal over the size of the problem.", "anchors": ["simplesat/examples/van_der_waerden.py: van_der_waerden", "simplesat/sat/minisat.py: MiniSATSolver.search"]}
{"id": "C63", "title": "The decision log says what happened", "statement": "While a logged policy drives the SAT solver, at every decision and however the run ends: the logged suggestions are the decisions in order, and the change list logged for a decision holds exactly the variables whose value differs from that at the decision before, with old and new value, so that the values at every decision can be recovered from the log. The report has one line for every decision but the last, in order; its line for decision i lists the packages of other names whose value differs at decision i+1, with both values, marks 'R' exactly the required packages, and 'BACKTRACKED' follows exactly if a variable lost its value between the two decisions. The histogram lists each decided variable once, with the number of its decisions, most frequent first. Refuted: that the report shows every decision, marks every decision that was undone, or ever marks an installed package with 'I'.", "quantifier": "every set of clauses, every policy that changes no values (proved for the default and the dependency solver's policy), every decision of the run", "why_tests_cant": "Quantifies over all moments of all runs, including backtracking between two decisions.", "anchors": ["simplesat/sat/policy/policy_logger.py: PolicyLogger.get_next_package_id, add_requirements, _log_report, _log_histogram", "simplesat/sat/assignment_set.py: AssignmentSet.get_changelog, consume_changelog"]}
{"id": "C64", "title": "The DIMACS export says what the solver would solve", "statement": "The text to_dimacs makes of a pool and the clauses of a solver is in the DIMACS CNF format: reading it gives back exactly these clauses, in order, literal by literal, with the number of clauses and of different variables in the header. For the clauses MiniSATSolver.from_rules makes of the rules generated for a request: they are about the ids of the packages of the pool; the packages selected by a model of them include a valid installation for the jobs of the request, and every valid installation is a model; so the text is satisfiable exactly if there is a valid installation, and where from_rules raises SatisfiabilityError there is none. Refuted: that the header is legal (the ids used may exceed the number of variables; it is legal exactly if the ids have no gaps; the header of tools/minisat_helpers.py always is), that the modifiers of the request count unless they were put into the pool, that upgrade requests can be exported, and that the script itself prints anything (its call of DependencySolver raises TypeError). The second line of the text is a comment with a JSON object: reading it gives, for every id of the pool and nothing else, the name and the version of the package with this id, whatever characters they consist of.", "quantifier": "every set of clauses, every pool, installed repository and request, every version formatting", "why_tests_cant": "Universal over problems and over the text; ids without gaps are common in small tests.", "anchors": ["scripts/scenario_to_dimacs.py: clauses_to_dimacs, initialize, to_dimacs, main", "tools/minisat_helpers.py: rules_set_to_dimacs", "simplesat/sat/minisat.py: MiniSATSolver.from_rules", "simplesat/dependency_solver.py: DependencySolver.__init__"]}
{"id": "C65", "title": "Solving again after carrying out the transaction changes nothing", "statement": "After the operations of a returned transaction have been carried out, solving the same request again returns an empty transaction and does not raise SatisfiabilityError, for requests of install, remove and hard update jobs, and also with soft update jobs if candidates of the same version have the same name and packages of the same name and version the same metadata. For upgrade requests this is false: a second upgrade may raise SatisfiabilityError. With soft updates of packages whose candidates have equal versions it is false, too: the second run may undo the first.", "quantifier": "all pools without virtual provides, installed repositories and requests whose remove jobs name installed packages or rule out all versions, all iteration orders of sets in both runs", "why_tests_cant": "A statement about two runs, for all inputs.", "anchors": ["simplesat/dependency_solver.py: DependencySolver.solve, _convert_upgrade_request_if_needed, _connected_packages", "simplesat/sat/policy/undetermined_clause_policy.py"]}
{"id": "C66", "title": "The answer of solve depends on the repositories and the request only, not on what was done with the pool before", "statement": "In a program that makes requests, modifiers, repositories and calls on one pool in any order, solve and solve_with_hint answer what they would answer with a pool made now of the repositories that were added (as they were then), for the request as it is now: with its jobs, and with the present names of its modifiers object (which other requests may share). Earlier solves, whatever their outcome, queries and assignments to pool.modifiers make no difference to it; solving twice gives the same answer; an id means the same package for ever; even after a failed add_repository the ids in use are 1..n and the id of a package leads back to an equal package. What pool.what_provides answers does depend on earlier solves: every solve replaces pool.modifiers by the modifiers object of its request (by None if that is empty), so modifiers given to the pool are lost and later changes to a solved request change the pool's answers. Refuted: that pool.name_to_packages is harmless (looking up an unknown name can make a later solve raise NotImplementedError) and that a failed add_repository leaves the pool as it was.", "quantifier": "every history of calls (creating and changing objects, adding repositories, queries, solves, calls that raise), every sharing of modifiers objects", "why_tests_cant": "A property of all histories.", "anchors": ["simplesat/dependency_solver.py: DependencySolver.solve, solve_with_hint", "simplesat/pool.py: Pool.add_repository, what_provides, name_to_packages, modifiers, id_to_package", "simplesat/request.py: Request", "simplesat/constraints/constraint_modifiers.py: ConstraintModifiers", "simplesat/utils/_collections.py: DefaultOrderedDict.__missing__"]}
{"id": "C67", "title": "Scenario files: exactly what the data says is loaded and solved", "statement": "Scenario.from_yaml succeeds on well-shaped data exactly if each package line, requirement and listed name can be read, and then: the packages are the lines in order of first occurrence, a later line of the same name and version replacing an earlier one; remote is what is listed (everything, if not given), installed what is listed; the jobs are those of the request entries in order, followed by the marked entries that were not asked for by name, as installs, or as hard updates if the file says update_all; the modifiers are the names listed; the expected operations are those listed. What is solved afterwards is this repository and request, so that the result is a valid installation, or no valid one exists. Refuted: that an upgrade can be asked for (TypeError), that a marked package asked for is always forgotten (not if it is listed twice, or with a constraint).", "quantifier": "all scenario data of the documented shape, all version classes that print equal versions the same, all iteration orders of sets", "why_tests_cant": "A statement about all texts and lists, from text to transaction.", "anchors": ["simplesat/test_utils.py: Scenario.from_yaml, _operations_from_transaction_list, parse_package_list, repository_factory, remote_repository, installed_repository", "simplesat/tests/test_scenarios_policy.py"]}
{"id": "C68", "title": "The printed report says what the rules say", "statement": "The text of each generated rule names what the rule is about: for a job exactly the packages that meet its requirement (for hard updates the newest), for a dependency the package and exactly the other packages that meet it, for packages of one name or a declared conflict the two packages, for a broken package that package; lists are in the order of ids and, in the report, without repeated texts; before it, on a line of its own, the chain of requirements that led to it. The report of a SatisfiabilityError printed with the pool consists, for each part of its reason, of a heading and, for each clause in order, the text of a rule with the same literals that came from a request. The direction of a conflict is lost: the package with the greater id comes first.", "quantifier": "all repositories, modifiers, requests and search histories, all ways to print versions and requirements; package names are words separated by dots, and packages that compare equal are identical", "why_tests_cant": "The text depends on the sorting of literals, on ids and on the search.", "anchors": ["simplesat/rules_generator.py: PackageRule.to_string, _pretty_literals", "simplesat/pool.py: Pool.id_to_string", "simplesat/sat/minisat.py: UNSAT.to_string, string_from_clauses"]}
{"id": "C69", "title": "Transactions and hints can be read off their texts", "statement": "Transaction.to_simple_string has one line for each operation, in order, and determines the kinds of the operations, the names of the packages and their printed versions, if names and printed versions contain neither blanks nor line breaks (refuted otherwise). Transaction.to_string has a heading and one line per package for each operation, the replaced package before the new one, and determines the kinds and the printed packages, if these contain no line break. Each line of hint_pretty_string after the first is one of the conflicting jobs, in order, with its kind and its requirement.", "quantifier": "all transactions, all lists of jobs, all ways to print versions, packages and requirements", "why_tests_cant": "That a text determines what it describes is a statement about all pairs of inputs.", "anchors": ["simplesat/transaction.py: Transaction.to_string, to_simple_string", "simplesat/request.py: _Job.__str__", "simplesat/errors.py: SatisfiabilityErrorWithHint.hint_pretty_string"]}
{"id": "C70", "title": "Nothing is installed without need", "statement": "With use_pruning=True every package present after the transaction provides a name that an installed package or a candidate of the request provides, or is reached from such a package through dependencies of packages present. If no name is provided by packages of two names, the result is minimal: a valid installation for the request among the packages present that contains those with the name of a package installed before is all of them; so each package the transaction installs replaces a removed one of its name or cannot be left out. Replacements are not always needed: asked to remove one version of a package, the solver installs another version.", "quantifier": "all repositories, installed packages, modifiers and requests, all iteration orders of sets; installed packages and repository packages of the same name and version carry the same metadata, remove jobs name installed packages or rule out all versions", "why_tests_cant": "Minimality compares the result with all other valid installations.", "anchors": ["simplesat/dependency_solver.py: DependencySolver.solve, _connected_packages", "simplesat/utils/graph.py: connected_nodes"]}
{"id": "C71", "title": "More choice never makes a request unsolvable", "statement": "If a request can be met, it is not reported unsatisfiable after adding packages or repositories, replacing install jobs by ones that more packages meet or remove jobs by ones that fewer meet, dropping jobs, or adding modifiers; nor does whether it can be met depend on what is installed, on the order in which repositories were added or on the order of the jobs. For more packages the request must not contain hard updates or upgrades (refuted: a newer version that cannot be installed makes the hard update fail), for more modifiers the constraints ^= of dependencies must not carry a build number (refuted: allow_newer then becomes >= with the build number and excludes older builds).", "quantifier": "all pairs of repositories, installed packages, modifiers and requests related as described, all iteration orders of sets, any two search histories", "why_tests_cant": "It compares the answers of two runs, for all pairs of inputs.", "anchors": ["simplesat/dependency_solver.py: DependencySolver.solve", "simplesat/constraints/constraint_modifiers.py: ConstraintModifiers", "simplesat/rules_generator.py: RulesGenerator"]}
{"id": "C72", "title": "What the options strict and use_pruning change", "statement": "With strict=True solve and solve_with_hint answer exactly as with strict=False, or raise MissingInstallRequires, MissingConflicts or TypeError. use_pruning does not change whether SatisfiabilityError is raised nor its reason. With use_pruning=True the operations are those without pruning, except that some installations are dropped; removals are the same (if no name is provided by packages of two names).", "quantifier": "all repositories, installed packages, modifiers and requests, all iteration orders of sets", "why_tests_cant": "It compares the answers of two configurations, for all inputs.", "anchors": ["simplesat/dependency_solver.py: DependencySolver.__init__, solve, solve_with_hint, _connected_packages", "simplesat/rules_generator.py: RulesGenerator"]}
{"id": "C73", "title": "Using one SAT solver object step by step, and again", "statement": "However a client interleaves `add_clause` and `_setup_assignments` calls on a new `MiniSATSolver`, if the last call before `search()` is `_setup_assignments()`, `search()` returns a model of the added clauses that gives a value to each of their variables, or raises SatisfiabilityError and they have no model. After a solution was returned, `search()` returns it again and changes nothing. A clause of two or more literals added after a solution is not looked at: `search()` returns the old solution even if it violates the clause; a one-literal clause added after a solution is accepted if true in it and raises SatisfiabilityError otherwise. Hence the solver object is not incremental: it can return wrong answers and wrongly report unsatisfiability (refuted). Without `_setup_assignments`, clauses of two or more literals are answered with the empty assignment. A search below an `assume`d literal that contradicts the clauses may fail with AssertionError instead of SatisfiabilityError (refuted).", "quantifier": "all sequences of calls, all clauses over non-zero literals, all policies that propose undecided variables, all later clauses", "why_tests_cant": "The interleavings of calls and the later clauses are unbounded; the tests call the methods in one fixed order and never use a solver after its search.", "anchors": ["simplesat/sat/minisat.py:MiniSATSolver.add_clause", "simplesat/sat/minisat.py:MiniSATSolver._setup_assignments", "simplesat/sat/minisat.py:MiniSATSolver.search", "simplesat/sat/minisat.py:MiniSATSolver.assume"]}
{"id": "C74", "title": "Iterating over a repository while it changes", "statement": "Iterating over a repository that is not changed meanwhile yields its packages in listed order. `a.update(b)` for another repository adds the packages of b in b's order. `a.update(a)` never ends unless a is empty; updating with a list copy of it terminates and each package is then there twice. A loop over a repository that adds packages to it only ever sees packages that were there or that it added, but it may see a package twice and miss others (refuted: 'each package once').", "quantifier": "all repositories (any history of additions), any number of loop rounds, any loop body that adds packages depending on the current one", "why_tests_cant": "Non-termination and loops of any length cannot be observed by a finite run.", "anchors": ["simplesat/repository.py: Repository.__iter__, add_package, update"]}
{"id": "C75", "title": "DefaultOrderedDict: order, defaults, copies", "statement": "After any sequence of operations the keys of a DefaultOrderedDict are distinct and stay in order of first insertion. Reading a missing key with factory list appends the key with a new empty list and changes nothing else; reading a present key, get and `in` change nothing. Grouping pairs by `d[k].append(x)` gives the keys in order of first occurrence, each with its values in order. `copy` gives the same items and shares the values; `deepcopy` gives equal contents that no later append through the other side changes, but two keys that share one list no longer do (refuted). A pickled and reloaded dict reads the same but raises TypeError for missing keys. Deleting a key removes exactly this key (KeyError if it is missing), storing under a present key changes its value in its place.", "quantifier": "all sequences of operations, all keys and values, all states of the other objects", "why_tests_cant": "Sharing between copies concerns all later updates; orders concern all histories.", "anchors": ["simplesat/utils/_collections.py: DefaultOrderedDict"]}
{"id": "C76", "title": "Export to PHP Composer", "statement": "The normalized version text is the upstream text, or its fixed replacement, followed by \".0\" as often as needed to have three dots and by \"-patch\" and the build number; in constraints build number 0 is left out. A request is exported exactly if all jobs install or remove and use only >=, >, <=, < and *: one part per job, in order, constraints joined by \", \"; otherwise the first job that cannot be exported decides between ValueError, KeyError and AttributeError. A repository is exported exactly if every dependency of every package has at most one alternative and only ^=, == and *: one entry per package in listed order, with one text per dependency name; otherwise InvalidConstraint or NotImplementedError is raised. Versions with at least four components and no replacement stay different if their build numbers agree; others can become equal (refuted).", "quantifier": "all requests, repositories and versions, any way upstream versions are printed", "why_tests_cant": "The claims are equivalences over all requests and repositories.", "anchors": ["simplesat/utils/_composer_utils.py: repository_to_composer_json_dict, request_to_php_parts, _normalize_php_version, _normalize_php_version_constraint, _requirement_to_php_constraints, _requirement_to_php_string, _requirements_to_php_dict"]}
{"id": "C77", "title": "Comparing and hashing objects", "statement": "Two constraints are equal iff of the same kind with the same version; requirements iff name and list of constraints agree (the class is ignored); packages iff name, version, dependencies, conflicts and repository agree (what they provide is ignored); rules iff their literals agree (reason and requirements are ignored); jobs and operations iff of the same kind with equal parts. == is an equivalence relation and equal objects have equal hashes. Equal requirements match the same versions and print the same. Comparing two objects of one kind never fails, except an upgrade job with another job (AttributeError); across kinds it fails exactly in listed cases, e.g. a requirement with None. Refuted: == is symmetric across classes (a requirement and a RepositoryInfo), equal requirements are interchangeable in a pool with modifiers (the class matters), requirements with the same constraints in another order are equal.", "quantifier": "all pairs and triples of constraints, requirements, packages, repository infos, rules, jobs, operations and None; all hash functions", "why_tests_cant": "Equivalence and the hash contract range over all objects and hash functions.", "anchors": ["simplesat/package.py: PackageMetadata.__eq__, __hash__, RepositoryPackageMetadata.__eq__, RepositoryInfo.__eq__", "simplesat/constraints/kinds.py: __eq__, __hash__", "simplesat/constraints/multi.py: MultiConstraints.__eq__", "simplesat/constraints/requirement.py: Requirement.__eq__, __hash__", "simplesat/rules_generator.py: PackageRule.__eq__, __hash__", "simplesat/request.py: _Job", "simplesat/transaction.py: Operation"]}
{"id": "C78", "title": "packages_from_requirements selects exactly, in the order of keys, or fails on copies", "statement": "packages_from_requirements returns exactly the given packages that meet some requirement (relaxed by the modifiers), each once, in strictly increasing order of name, version, dependencies and conflicts; so the order of packages and requirements does not matter. It raises TypeError exactly if two selected packages cannot be ordered: copies of one package from two repositories, or a package of a repository and one without. Selecting with requirements_from_packages(qs) gives back the packages qs, if no two names are provided by one package and no release occurs twice.", "quantifier": "all package lists without equal packages, with names the parser accepts, all install requirements and modifiers, any order of the metadata tuples", "why_tests_cant": "Order independence and the failure condition range over all lists of packages.", "anchors": ["simplesat/dependency_solver.py: packages_from_requirements, requirements_from_packages", "simplesat/package.py: PackageMetadata._key, RepositoryPackageMetadata._key"]}
{"id": "C79", "title": "Which installed packages are kept when not all can be", "statement": "Installed packages are considered in the order of their version numbers, lowest first, whatever their names: an installed package is kept if some valid installation has it together with the kept installed packages of no higher version (also up to copies of the same name, version and metadata). So the installed package of the lowest version is kept whenever a valid installation has it. Refuted: as few installed packages as possible are removed (version numbers of unrelated packages decide).", "quantifier": "all pools, installed sets, requests (installed packages named by soft updates excepted) and iteration orders", "why_tests_cant": "The claim compares the answer with all valid installations.", "anchors": ["simplesat/sat/policy/undetermined_clause_policy.py: UndeterminedClausePolicy.__init__, _best_sorted_candidate", "simplesat/dependency_solver.py: DependencySolver.solve"]}
{"id": "C80", "title": "The newest of everything is installed if it fits together", "statement": "Let S be a valid installation with all installed packages (except those a soft update names) that leaves out, of the packages the request makes the solver look at, only those that a job removes, that have a dependency nothing meets, or that cannot be present together with a preferred package of S: an installed one, or a newer one (that the request is about if it is about the package left out). Then only packages of S are installed, none of S is removed, and those of S that the request is about are present. In particular, with nothing installed: if the newest versions fit together, every installed package is the newest of its name. Refuted: each dependency is installed in the newest version that fits what else is installed (a package that is not needed at all can decide otherwise and be pruned afterwards).", "quantifier": "all pools, installed sets, requests, iteration orders and valid installations S", "why_tests_cant": "The claim relates the answer to every valid installation; the search runs through arbitrarily many decisions.", "anchors": ["simplesat/sat/policy/undetermined_clause_policy.py: UndeterminedClausePolicy.get_next_package_id, _refresh_decision_set, _best_candidate", "simplesat/sat/minisat.py: MiniSATSolver.search, propagate", "simplesat/dependency_solver.py: DependencySolver.solve"]}
{"id": "C81", "title": "Whether a request can be met depends only on the packages it leads to", "statement": "The packages a request leads to are those a job asks for and, from there, those that meet a dependency of one of them. If a request (install, soft update and remove jobs) is solved with one pool and installed set, and a second pool holds the packages it leads to, then it is not refused as unsatisfiable with the second pool, whatever else is in it and whatever is installed there.", "quantifier": "all pairs of pools and installed sets, requests, iteration orders", "why_tests_cant": "Relates two runs of the search on different inputs of any size.", "anchors": ["simplesat/dependency_solver.py: DependencySolver.solve", "simplesat/rules_generator.py: RulesGenerator.iter_rules", "simplesat/pool.py: Pool"]}
{"id": "C82", "title": "Unrelated packages change nothing", "statement": "Let repositories be added behind the others whose packages provide no name that the request, an installed package, or a package related to these (through names in metadata) mentions. Then solve returns the same transaction or raises the same error as without them, for every kind of job, and solve_with_hint gives the same hint. Refuted: the same with the repositories added in front of the others (ids shift, and ties between equal versions are broken differently).", "quantifier": "all pools, added repositories, installed sets, requests, iteration orders", "why_tests_cant": "Relates two complete runs; an accidental dependency on ids, pool size or clause numbering shows up on particular inputs only.", "anchors": ["simplesat/pool.py: Pool.what_provides, Pool.add_repositories", "simplesat/rules_generator.py: RulesGenerator", "simplesat/sat/policy/undecided_clause.py: UndeterminedClausePolicy", "simplesat/dependency_solver.py: DependencySolver.solve, DependencySolver.solve_with_hint"]}
{"id": "C83", "title": "Lock files: a set written down as exact requirements is restored", "statement": "Let L be a set of packages from the repositories in which every dependency is met by another member, no name occurs twice and nothing conflicts, and let no name be provided by packages of two names and equal releases carry equal metadata. A request to install exactly the packages of L (name == version for each, as requirements_from_packages makes them) is never refused as unsatisfiable; if solve (with pruning) answers and every installed package has the name of a member of L, the name-version pairs present afterwards are exactly those of L, whatever versions were installed; satisfy_requirements returns exactly the members of L, each once. So what one solve brought about can be written down and restored on another system with the same repositories. Refuted: with a package that virtually provides a member of L (it may be installed instead, or in addition); without the condition on installed packages (others stay).", "quantifier": "all repositories, installed sets, consistent sets L, modifiers, iteration orders; for the replay all pairs of systems", "why_tests_cant": "Exactness must hold for every consistent set and every installed state; it needs both validity and minimality of the answer.", "anchors": ["simplesat/dependency_solver.py: requirements_from_packages, satisfy_requirements, DependencySolver.solve", "simplesat/request.py: Request.install"]}
{"id": "C84", "title": "Iterators instead of lists as arguments", "statement": "packages_from_requirements, requirements_are_satisfiable, satisfy_requirements, requirements_are_complete (its packages argument) and minimal_unsatisfiable_subset give the same result for a one-shot iterator (a generator, filter object, ...) as for the list of its items. The claim that all functions accept any iterable, as their documentation says, is refuted: packages_are_consistent called with a non-empty iterator always raises NoPackageFound; requirements_are_complete called with an iterator of requirements returns True whatever the requirements (unless selecting the packages fails); simplify_requirements called with an iterator of packages leaves out no requirement at all.", "quantifier": "all package lists, requirement lists, modifiers, iteration orders", "why_tests_cant": "The wrong answers are silent; they concern every input passed in this form.", "anchors": ["simplesat/dependency_solver.py: packages_are_consistent, requirements_are_complete, simplify_requirements, packages_from_requirements, requirements_are_satisfiable, satisfy_requirements, minimal_unsatisfiable_subset"]}
{"id": "C85", "title": "Transactions that are interrupted", "statement": "Let the installed packages be consistent and let a transaction of solve (with pruning, no virtual provides, equal metadata for equal releases) be carried out operation by operation and stop anywhere. Then at that point no package is installed in two versions, nothing conflicts, and every dependency of every installed package is met, except that a package the transaction leaves alone may have lost a package that was removed; if no package that stays depends on one that is removed, every intermediate state is consistent. Solving the same request (install, soft update, remove jobs) again from there is never refused as unsatisfiable. Refuted: that the second attempt leads to the packages the first would have led to: what had already been removed may be forgotten (an interrupted upgrade, started again, does not install the new version of a package whose old version is already gone).", "quantifier": "every point of every transaction of every solve; all pools, requests, iteration orders", "why_tests_cant": "Ranges over all interruption points of all transactions.", "anchors": ["simplesat/transaction.py: Transaction, _safe_operations", "simplesat/dependency_solver.py: DependencySolver.solve, _convert_upgrade_request_if_needed"]}
{"id": "C86", "title": "Histories of requests", "statement": "Start from installed packages without two versions of one package and without conflicts, and make any number of requests one after the other (any jobs, modifiers and environments; pruning on; no virtual provides; equal metadata for equal releases; remove jobs about installed things or ruling out every version), each transaction being carried out completely or only up to an arbitrary operation, and the result becoming the repository of installed packages of the next request. Then there are never two versions of one package or a conflict among the installed packages, every installed package is one of the initial ones or of the remote repositories, and after every transaction that is carried out completely all dependencies (relaxed by the modifiers of that request) are met, even if earlier ones were interrupted.", "quantifier": "every finite history of requests and interruptions; all repositories, modifiers, iteration orders", "why_tests_cant": "Ranges over all histories of requests; an invariant kept by every step.", "anchors": ["simplesat/dependency_solver.py: DependencySolver.solve", "simplesat/transaction.py: Transaction", "simplesat/repository.py: Repository"]}
{"id": "C87", "title": "Solving the exported problem with another SAT solver", "statement": "Let any program that answers SAT problems correctly be run on the exported problem (as scenario_to_dimacs.py --solve and tools/minisat_helpers.py do). It finds a solution exactly if there is a valid installation for the jobs of the request; the literals it prints are read back exactly; and the transaction made of any solution leaves a valid installation (no virtual provides, equal metadata for equal releases, no package twice, remove jobs about installed things or ruling out every version). With acyclic dependencies the transaction is always produced. The tools believe nothing but exit code 10 and a file that begins with the line SAT. Refuted: that it leaves alone what nobody asked to change (an installed package that no rule is about is removed if the program prints a negative value for it); that the script reports unsatisfiable problems (it fails with ValueError).", "quantifier": "all repositories, requests, correct solvers and solutions they may choose, iteration orders", "why_tests_cant": "Ranges over every solution of every problem; the project's own solver shows only one of them.", "anchors": ["scripts/scenario_to_dimacs.py: from_dimacs_solution, main", "tools/minisat_helpers.py: solve_sat, solution_to_package_strings, is_satisfable", "simplesat/dependency_solver.py: _connected_packages", "simplesat/transaction.py: Transaction"]}
{"id": "C88", "title": "The text of the decision log", "statement": "If the names, versions and repository names of the packages contain no blanks, the report of PolicyLogger (with or without assignments) exists exactly if every id in the log is known to the pool, and its text says exactly what the data of the report say: a header with the first assignments, per reported decision one line with number, marks, package and id, below it the changes sorted by name and version, and BACKTRACKED where it applies. The text can be read: two logs (of any runs, with any pools) with the same text have the same decisions, marks, changes and header. The histogram has one readable line per decided package, most frequent first. Names and versions, ids and repositories stand in fixed columns as long as they fit. Refuted without the condition on blanks: a repository name with line breaks can imitate other lines.", "quantifier": "all pools, logs, version texts, orders of the items of the recorded dicts", "why_tests_cant": "Unambiguity is a statement about all pairs of logs; the texts have variable width.", "anchors": ["simplesat/sat/policy/policy_logger.py: PolicyLogger._log_report, _log_histogram, _log_pretty_pkg_id"]}
{"id": "C89", "title": "Which package the decision policy suggests", "statement": "After any history of one UndeterminedClausePolicy (requirements added and suggestions asked for in any order, with any assignments and clauses), a suggested package is unassigned, and it is: an unassigned installed package, the first in their order; else, if there is none, an unassigned requirement of a highest version; else, if there is none either, of a highest version among the packages that were undetermined (unassigned, in a clause that was not yet true) at one of the calls and have been unassigned at all calls since; at this very call if a new key has been assigned; and only if nothing is undetermined now, of a highest version among all unassigned packages of the clauses. Set iteration orders are arbitrary. So whenever a new key has appeared the documented choice is made. Refuted in general: in an ordinary run a package whose clauses are all true already is suggested while another is undetermined, because the gathered set is refreshed only when it is used up.", "quantifier": "all histories of calls, assignments, clauses, versions, set iteration orders", "why_tests_cant": "The choice depends on the whole history of the policy object; a test sees single histories and a single iteration order.", "anchors": ["simplesat/sat/policy/undetermined_clause_policy.py: UndeterminedClausePolicy"]}
{"id": "C90", "title": "Publishing the files of a release, also when interrupted", "statement": "A run of upload_assets that is not interrupted gets no error from the server; it exits with -1 exactly if neither --force nor --replace is given and a file of the folder is on the server with another hash; otherwise every file of the folder is published afterwards (same name, same hash; with --force the same contents); assets of other names are never touched. However often the script was killed, before whichever requests and with whichever options, a complete run with --force or --replace publishes everything. A killed run leaves at most one asset of the release missing, and none without the options. Refuted: that a file being replaced is always on the server; the old one is deleted first. verify_release checks at least once, ends well at the first check that finds the release as long as the clock showed less than two seconds at all earlier checks, pauses 10 ms, 20 ms, 40 ms, ... between them up to the given bound, makes at most eight checks with a bound of at least 1.28 s, and otherwise fails with AssertionError, never with the ValueError it is written to raise.", "quantifier": "all folders, releases, options, hash functions, numbers and points of interruption; all clocks and sequences of answers", "why_tests_cant": "A test cannot kill the script at every point of every sequence of runs, nor wait out every clock.", "anchors": [".github/actions/upload-assets/utils/upload_assets.py: main", ".github/actions/prepare-release/utils/retry.py: busy_retry, sleeping_retry", ".github/actions/prepare-release/utils/common.py: verify_release"]}
{"id": "C91", "title": "Packages and rules from a definition text", "statement": "packages_from_definition cuts a text into its lines (there is exactly one way, for every kind of line end) and returns the packages described by the lines that are not blank, in order; it fails exactly if one of them is not a package string, with ValueError or what the version factory raises. The printed forms of packages, one in each line, are read back as these packages. pool_and_repository_from_packages gives a repository with exactly the packages of the text and a pool about it; the rules that RulesGenerator makes of such a pool and a requirement can be satisfied exactly if the requirement can be installed out of the packages of the text with nothing installed before. Refuted: that generate_rules_for_requirement returns these rules (it always raises TypeError: unknown keyword).", "quantifier": "all texts, version factories, requirements, lists of packages", "why_tests_cant": "Ranges over every text and every set of packages; a test tries a handful.", "anchors": ["simplesat/test_utils.py: packages_from_definition, pool_and_repository_from_packages, generate_rules_for_requirement", "simplesat/constraints/package_parser.py: parse_to_package", "simplesat/rules_generator.py: RulesGenerator"]}
{"id": "C92", "title": "ConstraintModifiers objects: made, updated, cleaned, written down", "statement": "ConstraintModifiers(...) has exactly the names given (a string is one name). After any sequence of update and remove calls a name is in one of the three sets iff it was there at first or came with an update of this set, and was not removed after that; remove with a string raises TypeError and changes nothing; targets are the names in some set. More names only relax: whatever a requirement accepts under modifiers it accepts after an update, and whatever it accepts after a removal it accepted before (versions with the usual build numbers, ^= without build number); a removed name's requirements are left alone. asdict lists each set strictly sorted, and read back, as keywords or as the modifiers of a scenario, gives equal modifiers.", "quantifier": "all sequences of calls, sets of names, requirements and versions", "why_tests_cant": "Ranges over every history of calls and every version.", "anchors": ["simplesat/constraints/constraint_modifiers.py: as_set, ConstraintModifiers.asdict, update, remove, targets", "simplesat/test_utils.py: Scenario.from_yaml"]}
{"id": "C93", "title": "The files for PHP's Composer", "statement": "scenario_to_php_template_variables succeeds exactly if there is a remote repository, every dependency of the first one's and of the installed packages has at most one alternative with only ^=, == and * constraints, and every job is an install or remove job with only >=, >, <=, < and * constraints. Then the file named for the remote repository is a JSON text of a list with one object for each package, in the order of the repository, with its name, its version, the version for Composer and the mapping of its dependencies; the other file says the same of the installed repository (the names being different), other files are unchanged, and the two names and the parts of the request are returned. A text is the JSON text of at most one value, and json.dumps writes a JSON text of its argument, whatever characters (up to code 255) its strings consist of. On failure: without remote repositories IndexError and no file changed; otherwise the files of the repositories before the failing one are complete and the failing one's file is left empty, which is no JSON text.", "quantifier": "all repositories, requests, version factories, file names and states of the files", "why_tests_cant": "A test writes one or two files; the claim ranges over every package, every name (with quotes, control characters, accents) and every way to fail.", "anchors": ["simplesat/utils/_composer_utils.py: scenario_to_php_template_variables, repository_to_composer_json_dict, request_to_php_parts"]}
{"id": "C94", "title": "What the timers of a solver say", "statement": "Measuring never changes what is measured: the answer of solve, and of any body of a with statement, an exception too, is the same under every clock. After any history of solve calls on a solver, each of its three times (making rules, making the SAT solver, searching) is NaN exactly if no call got as far as that step, and otherwise says how long the step took in the last call that got as far, also if it ended with an exception there; all three were measured if a transaction was returned. With a clock that does not go backwards no time is negative and the three times of such a call add up to no more than the call took. Refuted: that the times are about the last call (after NoPackageFound two of them are of an earlier call), that a timer used inside itself measures the outer body (it forgets the outer start), and that a timer that has not been run says so.", "quantifier": "all histories of solve calls on changing pools, repositories and requests; all clocks", "why_tests_cant": "Tests use one clock and one call; the claim is about every history, in particular those with failing calls.", "anchors": ["simplesat/utils/timed_context.py: timed_context", "simplesat/dependency_solver.py: DependencySolver.solve, _last_rules_time, _last_solver_init_time, _last_solve_time"]}
{"id": "C95", "title": "Every solve ends, and only in listed ways", "statement": "For every pool and request, also with dependencies in circles, strict mode or without pruning, solve ends, within a bound on its loops that does not depend on the iteration orders of sets: it returns a transaction, raises SatisfiabilityError, or raises KeyError, AssertionError, ValueError, TypeError, NotImplementedError, InvalidConstraint, InvalidDependencyString or NoPackageFound, and MissingInstallRequires or MissingConflicts only in strict mode; never anything else (such as an IndexError or StopIteration of the SAT solver or the policy, or RecursionError or SolverException). With pruning, if metadata can be interpreted, every job has a candidate and no name is provided by packages of two names, and nothing unknown is to be removed, only ValueError, because of a cycle, and in strict mode MissingInstallRequires, MissingConflicts and TypeError are left. The search answers within 2^(n+1) - 1 rounds, n being the packages of the pool, each propagating at most n literals.", "quantifier": "all repositories, installed packages, requests, modes and iteration orders of sets", "why_tests_cant": "Ranges over every pool and request; a test that hangs only says that one did.", "anchors": ["simplesat/dependency_solver.py: DependencySolver.solve, solve", "simplesat/rules_generator.py: RulesGenerator.iter_rules", "simplesat/sat/minisat.py: MiniSATSolver.search", "simplesat/transaction.py: Transaction"]}
