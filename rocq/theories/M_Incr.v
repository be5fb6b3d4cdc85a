(** Incremental builds: compiler/lib/src/Acton/Hashing.hs and Compile.hs.  A hash is modelled as what
    is hashed (no collisions of SHA-256).  Simplifications: names and texts are numbers; the order of
    names is that of the list of items; sets are kept in the order of first mention; all names are
    public; a build ends with the first module that fails; only interfaces (the public hashes and the
    decision to run the front passes), not implementation hashes and code. *)
From Coq Require Import List Arith Bool.
From Verif Require Import S_Incr.
Import ListNotations.

(** Hashing.hs:733-790: a tag, signatures, names and hashes. *)
Inductive hash := Hash (tag : nat) (is : list info) (ns : list nat) (ds : list hash).
(** hashSelfWithDepsFromWith: the signature and the hashes of the names in it, without names. *)
Definition HSelf (i : info) (ds : list hash) := Hash 0 [i] [] ds.
(** hashCycleGroupFromWith: the signatures of the members and the hashes of the others. *)
Definition HGroup (is : list info) (ds : list hash) := Hash 1 is [] ds.
(** hashCycleMemberWith. *)
Definition HMember (i : info) (g : hash) (n : nat) := Hash 2 [i] [n] [g].
(** hashNameHashMapEntriesForNames. *)
Definition HMod (ns : list nat) (ds : list hash) := Hash 3 [] ns ds.
(** The hash of a signature alone, nameInfoHashes. *)
Definition HOwn (i : info) := Hash 4 [i] [] [].

Definition q_eqb (a b : qname) : bool := (fst a =? fst b) && (snd a =? snd b).
Definition l_eqb {A} (e : A -> A -> bool) : list A -> list A -> bool :=
  fix go a b := match a, b with [], [] => true | x :: a, y :: b => e x y && go a b | _, _ => false end.
Definition i_eqb (a b : info) : bool := (text a =? text b) && l_eqb q_eqb (refs a) (refs b).
Fixpoint h_eqb (a b : hash) : bool :=
  match a, b with
  | Hash t is ns ds, Hash t' is' ns' ds' => (t =? t') && l_eqb i_eqb is is' && l_eqb Nat.eqb ns ns' && l_eqb h_eqb ds ds'
  end.

Fixpoint assoc {A} (n : nat) (l : list (nat * A)) : option A :=
  match l with (k, a) :: l => if k =? n then Some a else assoc n l | [] => None end.
Definition memb (n : nat) (l : list nat) : bool := existsb (Nat.eqb n) l.
Fixpoint undup {A} (e : A -> A -> bool) (l : list A) : list A :=
  match l with [] => [] | a :: l => a :: filter (fun b => negb (e a b)) (undup e l) end.

(** ** Hashing.hs:1405-1504, computeHashesSortedDeps, for module [m]; [ext] gives the hashes of names
    of other modules, [maxd] is maxAcyclicHashDepth. *)
Section Compute.
Variables (m : nat) (items : list item) (ext : qname -> hash) (maxd : nat).
Definition names : list nat := map name_of items.
Definition find_item (n : nat) : option item := find (fun it => name_of it =? n) items.
(** Hashing.hs:1352-1372, addSplitDepHash: names of this module, as far as they are there, and names of
    others. *)
Definition locals (i : info) : list nat := map snd (filter (fun q => (fst q =? m) && memb (snd q) names) (refs i)).
Definition externals (i : info) : list qname := filter (fun q => negb (fst q =? m)) (refs i).
(** lookupLocalHash. *)
Definition local_hash (acc : list (nat * hash)) (n : nat) : hash :=
  match assoc n acc with
  | Some h => h
  | None => match find_item n with Some it => HOwn (sig_of it) | None => HOwn (Info 0 []) end
  end.
(** computeAcyclic: [None] when there is a circle, or at the greatest depth. *)
Fixpoint visit (fuel : nat) (visiting : list nat) (acc : list (nat * hash)) (n : nat) : option (list (nat * hash)) :=
  match assoc n acc with
  | Some _ => Some acc
  | None =>
      match find_item n with
      | None => Some acc
      | Some it =>
          match fuel with
          | O => None
          | S f =>
              if memb n visiting then None
              else
                match fold_left (fun a l => match a with Some a => visit f (n :: visiting) a l | None => None end) (locals (sig_of it)) (Some acc) with
                | Some a => Some ((n, HSelf (sig_of it) (map (local_hash a) (locals (sig_of it)) ++ map ext (externals (sig_of it)))) :: a)
                | None => None
                end
          end
      end
  end.
Definition fast : option (list (nat * hash)) :=
  fold_left (fun a n => match a with Some a => visit (S maxd) [] a n | None => None end) names (Some []).
(** computeScc: strongly connected components, here given by reachability. *)
Definition next (n : nat) : list nat := match find_item n with Some it => locals (sig_of it) | None => [] end.
Fixpoint reach (f : nat) (a b : nat) : bool :=
  (a =? b) || match f with O => false | S f => existsb (fun x => reach f x b) (next a) end.
Definition cyclic (n : nat) : bool := existsb (fun x => reach (length items) x n) (next n).
Definition group (n : nat) : list nat := filter (fun x => reach (length items) n x && reach (length items) x n) names.
Definition own (n : nat) : info := match find_item n with Some it => sig_of it | None => Info 0 [] end.
Definition outside (g : list nat) : list nat := undup Nat.eqb (filter (fun d => negb (memb d g)) (flat_map next g)).
Definition outer (g : list nat) : list qname := undup q_eqb (flat_map (fun n => externals (own n)) g).
Fixpoint scc (f : nat) (n : nat) : hash :=
  match f with
  | O => HOwn (own n)
  | S f =>
      if cyclic n then HMember (own n) (HGroup (map own (group n)) (map (scc f) (outside (group n)) ++ map ext (outer (group n)))) n
      else HSelf (own n) (map (scc f) (locals (own n)) ++ map ext (externals (own n)))
  end.
Definition compute : list (nat * hash) :=
  match fast with
  | Some a => map (fun n => (n, local_hash a n)) names
  | None => map (fun n => (n, scc (S (length items)) n)) names
  end.
End Compute.

(** ** Compile.hs. *)
Section Build.
Variable Src : Type.
Variable src_eqb : Src -> Src -> bool.
(** The front passes: parser, kind and type checker. *)
Variable front : nat -> Src -> tree.
Variable maxd : nat.
(** The .tydb file of a module: the source's hash, the interface, the hashes of its names, and the
    names and modules it depends on with their hashes at that time (Compile.hs:2544-2610). *)
Record entry := Entry { e_src : Src; e_items : list item; e_hashes : list (nat * hash); e_rows : list (qname * hash); e_mods : list (nat * hash) }.
Definition env := list (nat * entry).
Definition look (v : env) (q : qname) : option info :=
  match assoc (fst q) v with
  | Some e => match find_item (e_items e) (snd q) with Some it => Some (sig_of it) | None => None end
  | None => None
  end.
Definition hash_of (v : env) (q : qname) : option hash :=
  match assoc (fst q) v with Some e => assoc (snd q) (e_hashes e) | None => None end.
Definition the_hash (v : env) (q : qname) : hash := match hash_of v q with Some h => h | None => HOwn (Info 0 []) end.
(** Hashing.hs:1651-1657, modulePubHashFromHashMap. *)
Definition mod_hash (v : env) (d : nat) : option hash :=
  match assoc d v with Some e => Some (HMod (map fst (e_hashes e)) (map snd (e_hashes e))) | None => None end.

(** Hashing.hs mergePubDeps and Compile.hs:2580-2600, resolveDepHashes: a missing name is an error. *)
Definition rows (m : nat) (items : list item) : list qname := undup q_eqb (mentioned m items).
Fixpoint resolve {A} (f : A -> option hash) (l : list A) : option (list (A * hash)) :=
  match l with
  | [] => Some []
  | a :: l => match f a, resolve f l with Some h, Some r => Some ((a, h) :: r) | _, _ => None end
  end.
(** Compile.hs:2292-2748, runFrontPasses. *)
Definition compile (v : env) (m : nat) (s : Src) : option entry :=
  match run (look v) (front m s) with
  | None => None
  | Some items =>
      match resolve (hash_of v) (rows m items), resolve (mod_hash v) (undup Nat.eqb (map fst (rows m items))) with
      | Some r, Some ms => Some (Entry s items (compute m items (the_hash v) maxd) r ms)
      | _, _ => None
      end
  end.
Definition is_hash (o : option hash) (h : hash) : bool := match o with Some h' => h_eqb h' h | None => false end.
(** Compile.hs:3716-3795, checkDepModuleRows and checkDepNameRows: for the modules whose hash has
    changed, or that are gone, the recorded names; none recorded counts as changed.  Then the front
    passes are run (3842-3848, needByPub, needByMissing). *)
Definition unchanged (v : env) (e : entry) : bool :=
  forallb (fun d => is_hash (mod_hash v (fst d)) (snd d) ||
    let own_rows := filter (fun r => fst (fst r) =? fst d) (e_rows e) in
    negb (length own_rows =? 0) && forallb (fun r => is_hash (hash_of v (fst r)) (snd r)) own_rows) (e_mods e).
(** Compile.hs:1908-2035, readModuleHeader: the source as in the file; 3817-3848. *)
Definition build_module (cache : env) (v : env) (m : nat) (s : Src) : option entry :=
  match assoc m cache with
  | Some e => if src_eqb (e_src e) s && unchanged v e then Some e else compile v m s
  | None => compile v m s
  end.
(** compileTasks (3122-): modules in an order in which imports come first. *)
Fixpoint build (cache : env) (order : list (nat * Src)) (v : env) : env * bool :=
  match order with
  | [] => (v, true)
  | (m, s) :: order =>
      match build_module cache v m s with
      | Some e => build cache order ((m, e) :: v)
      | None => (v, false)
      end
  end.
(** The files after any number of builds of any sources, some of which may have failed. *)
Inductive history : env -> Prop :=
| history_start : history []
| history_build : forall cache order, history cache -> NoDup (map fst order) -> history (fst (build cache order []) ++ cache).
End Build.
