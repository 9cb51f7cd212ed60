(** Workspace configuration: processor groups, programs and libraries.
    parser_library/src/workspaces/workspace.cpp (76, 130-147, 311, 326-465, 515-539) and
    parser_library/src/workspaces/library_local.cpp.

    Simplifications: the JSON documents are given as already decoded records, or as unreadable
    / not decodable; assembler options and the library paths (joined, normalised) are opaque
    values; the relative, normalised program name of workspace.cpp:134 is an input; Linux
    ([is_windows] false). *)
From Coq Require Import List NArith Arith Bool.
From Verif Require Import Common Wild_Model.
Import ListNotations.

(** ** Strings *)
(** [std::string::operator<] *)
Fixpoint bytes_ltb (a b : bytes) : bool :=
  match a, b with
  | _, [] => false
  | [], _ :: _ => true
  | x :: a', y :: b' => (x <? y)%N || ((x =? y)%N && bytes_ltb a' b')
  end.

(** common_types.cpp:28-33 [to_upper_copy], C locale. *)
Definition up (c : N) : N := if (97 <=? c)%N && (c <=? 122)%N then (c - 32)%N else c.
Definition to_upper (s : bytes) : bytes := map up s.

(** [std::sort] with a strict total order, and [std::unique]. *)
Fixpoint insert (lt : bytes -> bytes -> bool) (x : bytes) (l : list bytes) : list bytes :=
  match l with
  | [] => [x]
  | y :: l' => if lt y x then y :: insert lt x l' else x :: l
  end.
Definition sort (lt : bytes -> bytes -> bool) (l : list bytes) : list bytes :=
  fold_right (insert lt) [] l.

Fixpoint unique (l : list bytes) : list bytes :=
  match l with
  | x :: (y :: _) as l' => if bytes_eqb x y then unique l' else x :: unique l'
  | _ => l
  end.

(** ** One library: library_local.cpp *)

(** 30-54 [adjust_extensions_vector]. *)
Definition dotted (e : bytes) : bytes :=
  match e with
  | [] => []
  | c :: _ => if (c =? 46)%N then e else 46%N :: e
  end.
Definition ext_before (l r : bytes) : bool :=
  if (length r <? length l)%nat then true
  else if (length l <? length r)%nat then false
  else bytes_ltb l r.
Definition adjust_extensions (exts : list bytes) (deprecated : bool) : list bytes :=
  let contains_empty := existsb (fun e => match e with [] => true | _ => false end) exts in
  let sorted := sort ext_before (map dotted exts) in
  unique (if deprecated && negb contains_empty then sorted ++ [[]] else sorted).

(** 57-66, the constructor: an empty list stays empty. *)
Record library := { l_path : bytes; l_exts : list bytes; l_deprecated : bool }.
Definition mk_library (path : bytes) (exts : list bytes) (deprecated : bool) : library :=
  {| l_path := path;
     l_exts := match exts with [] => [] | _ => adjust_extensions exts deprecated end;
     l_deprecated := deprecated |}.

(** 137-142: the file name without the extension, if it has one. *)
Definition strip_ext (filename ext : bytes) : option bytes :=
  if (length filename <=? length ext)%nat then None
  else if bytes_eqb (skipn (length filename - length ext) filename) ext
  then Some (firstn (length filename - length ext) filename) else None.

(** 133-152: the extension at which the inner loop breaks. *)
Fixpoint first_ext (exts : list bytes) (filename : bytes) : option bytes :=
  match exts with
  | [] => None
  | e :: exts' =>
      match strip_ext filename e with Some stem => Some stem | None => first_ext exts' filename end
  end.

(** [files_]: member name to path. *)
Definition table := list (bytes * bytes).
Fixpoint tfind (k : bytes) (t : table) : option bytes :=
  match t with
  | [] => None
  | (k', v) :: t' => if bytes_eqb k k' then Some v else tfind k t'
  end.
Definition tset (k v : bytes) (t : table) : table := (k, v) :: t.

(** 125-153, one file of the directory listing: the table and the L0004 warnings. *)
Definition load_file (exts : list bytes) (st : table * list bytes) (file : bytes * bytes)
  : table * list bytes :=
  let (t, warns) := st in
  match exts with
  | [] => (tset (to_upper (fst file)) (snd file) t, warns)
  | _ =>
      match first_ext exts (fst file) with
      | None => (t, warns)
      | Some stem =>
          let member := to_upper stem in
          match tfind member t with
          | Some _ => (t, warns ++ [member])
          | None => (tset member (snd file) t, warns)
          end
      end
  end.

(** 102-158 [load_files]; the listing (an unordered map) is in arbitrary order. *)
Definition load_files (l : library) (listing : list (bytes * bytes)) : table * list bytes :=
  fold_left (load_file (l_exts l)) listing ([], []).

(** 83-100 [refresh], [find_file]: [files_loaded_] and [files_]. *)
Definition lib_state := option table.
Inductive lib_op := LFind (member : bytes) | LRefresh.
Definition lib_step (l : library) (listing : list (bytes * bytes)) (st : lib_state) (o : lib_op)
  : lib_state * option bytes :=
  match o with
  | LRefresh => (Some (fst (load_files l listing)), None)
  | LFind m =>
      let t := match st with Some t => t | None => fst (load_files l listing) end in
      (Some t, tfind m t)
  end.

(** workspace.cpp:515-526 [parse_library] and 528-539 [has_library]: the first library of the
    group that has the member ([dir] gives the listing of a library's directory; every library
    is freshly loaded). *)
Fixpoint parse_library (dir : bytes -> list (bytes * bytes)) (libs : list library) (member : bytes)
  : option (bytes * bytes) :=
  match libs with
  | [] => None
  | l :: libs' =>
      match tfind member (fst (load_files l (dir (l_path l)))) with
      | Some p => Some (l_path l, p)
      | None => parse_library dir libs' member
      end
  end.

(** ** Configuration files *)
Record lib_conf := { lc_path : bytes; lc_exts : list bytes }.
Record proc_conf := { pc_groups : list (bytes * list lib_conf); pc_exts : list bytes }.
Record pgm_conf := { pm_pgms : list (bytes * bytes); pm_always : list bytes }.

(** workspace.cpp:344-352: what follows the star of the last "*.". *)
Fixpoint compat_ext (w : bytes) : option bytes :=
  match w with
  | [] => None
  | c :: w' =>
      match compat_ext w' with
      | Some e => Some e
      | None => match w' with
                | d :: _ => if (c =? 42)%N && (d =? 46)%N then Some w' else None
                | [] => None
                end
      end
  end.
(** 343-356. *)
Definition compat_list (always : list bytes) : list bytes :=
  unique (sort bytes_ltb
    (flat_map (fun w => match compat_ext w with Some e => [e] | None => [] end) always)).

(** 365-390. *)
Definition library_of (pc : proc_conf) (compat : list bytes) (lc : lib_conf) : library :=
  match lc_exts lc with
  | _ :: _ => mk_library (lc_path lc) (lc_exts lc) false
  | [] => match pc_exts pc with
          | _ :: _ => mk_library (lc_path lc) (pc_exts pc) false
          | [] => match compat with
                  | _ :: _ => mk_library (lc_path lc) compat true
                  | [] => mk_library (lc_path lc) [] false
                  end
          end
  end.

(** The tables of the workspace: [proc_grps_], [exact_pgm_conf_], [regex_pgm_conf_]. *)
Record ws := { w_groups : list (bytes * list library);
               w_exact : list (bytes * bytes);
               w_regex : list (bytes * bytes) }.
Definition ws_init : ws := {| w_groups := []; w_exact := []; w_regex := [] |}.

Fixpoint gfind {A} (k : bytes) (t : list (bytes * A)) : option A :=
  match t with
  | [] => None
  | (k', v) :: t' => if bytes_eqb k k' then Some v else gfind k t'
  end.
(** [emplace]: keeps the first value of a key. *)
Definition gemplace {A} (k : bytes) (v : A) (t : list (bytes * A)) : list (bytes * A) :=
  match gfind k t with Some _ => t | None => t ++ [(k, v)] end.

(** 361-393. *)
Definition add_group (pc : proc_conf) (compat : list bytes)
  (gs : list (bytes * list library)) (g : bytes * list lib_conf) : list (bytes * list library) :=
  gemplace (fst g) (map (library_of pc compat) (snd g)) gs.

(** 396-413, one program entry; the second component counts W004 diagnostics. *)
Definition add_pgm (s : ws * nat) (pgm : bytes * bytes) : ws * nat :=
  let (w, n) := s in
  match gfind (snd pgm) (w_groups w) with
  | None => (w, S n)
  | Some _ =>
      if is_wildcard (fst pgm)
      then ({| w_groups := w_groups w; w_exact := w_exact w; w_regex := w_regex w ++ [pgm] |}, n)
      else ({| w_groups := w_groups w; w_exact := gemplace (fst pgm) (snd pgm) (w_exact w);
               w_regex := w_regex w |}, n)
  end.

(** A configuration file: unreadable, not decodable, or decoded. *)
Inductive doc (A : Type) := DBad | DNotJson | DOk (a : A).
Arguments DBad {A}. Arguments DNotJson {A}. Arguments DOk {A} a.

(** 326-461 [load_and_process_config] with [load_config]: new tables and the result. *)
Definition load_config (w : ws) (proc : doc proc_conf) (pgm : doc pgm_conf) : ws * bool :=
  match proc with
  | DBad | DNotJson => (w, false)
  | DOk pc =>
      (* 430: the groups are cleared before the second file is looked at *)
      match pgm with
      | DBad | DNotJson => ({| w_groups := []; w_exact := w_exact w; w_regex := w_regex w |}, false)
      | DOk pm =>
          let compat := compat_list (pm_always pm) in
          let gs := fold_left (add_group pc compat) (pc_groups pc) [] in
          (fst (fold_left add_pgm (pm_pgms pm)
                  ({| w_groups := gs; w_exact := []; w_regex := [] |}, 0%nat)), true)
      end
  end.

(** Any number of (re)loads. *)
Definition loads (w : ws) (h : list (doc proc_conf * doc pgm_conf)) : ws :=
  fold_left (fun w e => fst (load_config w (fst e) (snd e))) h w.

(** 130-147 [get_proc_grp_by_program]. [Throw] is the [std::out_of_range] of [at]. *)
Inductive selection := Throw | Implicit | Group (name : bytes) (libs : list library).
Definition at_group (w : ws) (g : bytes) : selection :=
  match gfind g (w_groups w) with Some libs => Group g libs | None => Throw end.
(** Every pattern compiles ([C11_plus_is_a_wildcard]), so [None] does not occur. *)
Definition selects (pattern file : bytes) : bool :=
  match pattern_match false pattern file with Some b => b | None => false end.
Fixpoint regex_find (file : bytes) (l : list (bytes * bytes)) : option bytes :=
  match l with
  | [] => None
  | (p, g) :: l' => if selects p file then Some g else regex_find file l'
  end.
Definition get_proc_grp (w : ws) (file : bytes) : selection :=
  match gfind file (w_exact w) with
  | Some g => at_group w g
  | None => match regex_find file (w_regex w) with
            | Some g => at_group w g
            | None => Implicit
            end
  end.
