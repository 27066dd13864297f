(** * Comparing objects with == and hash (package.py, constraints/{kinds,multi,requirement}.py, rules_generator.py,
    request.py, transaction.py). *)
From Verif Require Export Request Transaction.

(** The objects a program compares.  [VPkg p] is a PackageMetadata ([p_repo p = None]) or a RepositoryPackageMetadata;
    [VInfo n] is RepositoryInfo(n). *)
Inductive value :=
  | VNone
  | VCon (c : constr)
  | VMulti (cs : list constr)
  | VReq (r : requirement)
  | VInfo (n : string)
  | VPkg (p : package)
  | VRule (r : rule)
  | VJob (j : job)
  | VOp (o : operation).

(** The method [a.__eq__(b)]; [None] is NotImplemented.
    kinds.py 27-28, 41-45; multi.py 52-54; requirement.py 196-198; package.py 34-35, 145-149, 204-208;
    rules_generator.py 144-146.  Of the objects here RepositoryInfo, packages and requirements have an attribute [name],
    RepositoryInfo and packages an attribute [_key], and requirements an attribute [_constraints] that is a MultiConstraints.
    The keys are (name,) for RepositoryInfo, a 4-tuple that starts with the name for PackageMetadata and a pair that
    starts with a tuple for RepositoryPackageMetadata, so that keys of different classes differ.  Jobs and operations
    (attr.s, request.py 18-21, transaction.py 9-26) are compared attribute by attribute if they have the same class. *)
Definition eq_method (a b : value) : option (res bool) :=
  match a, b with
  | VNone, VNone => Some (Ok true)
  | VNone, _ => None
  | VCon c, VCon d => Some (Ok (bool_decide (c = d)))
  | VCon _, _ => Some (Ok false)
  | VMulti cs, VMulti ds => Some (Ok (bool_decide (cs = ds)))
  | VMulti _, _ => Some (Ok false)
  | VReq r, VReq s => Some (Ok (bool_decide (r_name r = r_name s) && bool_decide (r_cons r = r_cons s)))
  | VReq r, VInfo n => Some (if decide (r_name r = n) then Raise AttributeError else Ok false)
  | VReq r, VPkg p => Some (if decide (r_name r = p_name p) then Raise AttributeError else Ok false)
  | VReq _, _ => Some (Raise AttributeError)
  | VInfo n, VInfo m => Some (Ok (bool_decide (n = m)))
  | VInfo _, VPkg _ => Some (Ok false)
  | VInfo _, _ => Some (Raise AttributeError)
  | VPkg p, VPkg q => Some (Ok (pkg_eq p q))
  | VPkg _, VInfo _ => Some (Ok false)
  | VPkg _, _ => None
  | VRule r, VRule s => Some (Ok (bool_decide (ru_lits r = ru_lits s)))
  | VRule _, _ => Some (Ok false)
  | VJob j, VJob k =>
      Some (match j_req j, j_req k with
            | None, None => Ok (bool_decide (j_kind j = j_kind k))
            | Some r, Some s => Ok (bool_decide (r_name r = r_name s) && bool_decide (r_cons r = r_cons s) && bool_decide (j_kind j = j_kind k))
            | Some _, None | None, Some _ => Raise AttributeError     (* Requirement.__eq__(None) *)
            end)
  | VJob _, _ => None
  | VOp (InstallOp p), VOp (InstallOp q) | VOp (RemoveOp p), VOp (RemoveOp q) => Some (Ok (pkg_eq p q))
  | VOp (UpdateOp p p'), VOp (UpdateOp q q') => Some (Ok (pkg_eq p q && pkg_eq p' q'))
  | VOp _, _ => None
  end.
(** The expression [a == b]: if [a] does not know, [b] is asked; if neither knows, the objects are equal if they are one
    and the same, which objects of different classes are not.  (Python asks [b] first if its class is a
    subclass of that of [a]; no subclass here defines __eq__ anew.) *)
Definition py_eq (a b : value) : res bool :=
  match eq_method a b with
  | Some r => r
  | None => match eq_method b a with Some r => r | None => Ok false end
  end.

(** [hash]: kinds.py 33-34, 50-51; multi.py 59-60; requirement.py 203-204; package.py 24, 114, 169; rules_generator.py 151-152.
    The hash functions of strings, versions, integers, classes and metadata tuples are parameters, and that of a tuple
    is a function of the hashes of its elements.  Jobs and operations are mutable attr.s objects: not hashable. *)
Section hash.
  Context (h_str : string → Z) (h_version : version → Z) (h_int : Z → Z) (h_deps : list cdep → Z) (h_any : Z) (h_tuple : list Z → Z).
  Definition hash_con (c : constr) : Z :=
    match c with
    | CAny => h_any
    | CEqual v | CNot v | CGeq v | CGt v | CLeq v | CLt v | CUpstream v => h_version v
    end.
  Definition hash_multi (cs : list constr) : Z := h_tuple (hash_con <$> cs).
  Definition hash_info (n : string) : Z := h_tuple [h_str n].
  Definition hash_plain (p : package) : Z := h_tuple [h_str (p_name p); h_version (p_version p); h_deps (p_requires p); h_deps (p_conflicts p)].
  Definition hash (a : value) : option Z :=
    match a with
    | VNone => Some 0
    | VCon c => Some (hash_con c)
    | VMulti cs => Some (hash_multi cs)
    | VReq r => Some (h_tuple [h_str (r_name r); hash_multi (r_cons r)])
    | VInfo n => Some (hash_info n)
    | VPkg p => Some (match p_repo p with
                      | None => hash_plain p
                      | Some n => h_tuple [hash_plain p; hash_info n]
                      end)
    | VRule r => Some (h_tuple (h_int <$> ru_lits r))
    | VJob _ | VOp _ => None
    end.
End hash.
