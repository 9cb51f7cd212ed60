(** Location counters.
    parser_library/src/context/ordinary_assembly/location_counter.cpp, location_counter_data.cpp,
    address.cpp (spaces), address_resolver.cpp, ordinary_assembly_context.cpp.

    Simplifications.  [int] is unbounded here (overflow is undefined behaviour in the code).  The
    code converts offsets to [size_t] before taking them modulo a boundary; boundaries are powers of
    two, so the remainder is the mathematical one.  Spaces are identified by numbers in the order of
    creation.  Not modelled: [switch_to_unresolved_value] and [restore_from_unresolved_value]. *)
From Coq Require Import List ZArith Bool Arith.
Import ListNotations.
Local Open Scope Z_scope.

(** alignment.h:25-31. *)
Record alignment := mkAl { byte : Z; boundary : Z }.
Definition no_align := mkAl 0 1.
(** address.h:91-117. *)
Inductive skind := Ordinary | LoctrBegin | Alignment | LoctrSet | LoctrMax | LoctrUnknown.
Record space := mkSp { sid : nat; skind_of : skind; salign : alignment }.

(** location_counter_data.h:82-91.  [pot]: the kind is POTENTIAL_MAX. *)
Record data := mkData { storage : Z; parts : list (space * Z); initial : Z; safe : Z; pot : bool }.
(** location_counter.h; [curr] is the last element of [org_data_], [older] the others, last first. *)
Record loctr := mkLoctr { curr : data; older : list data; next : nat; starting : bool }.

(** location_counter_data.cpp:23-32. *)
Definition new_data (p : bool) : data := mkData 0 [] 0 0 p.
(** 34-38. *)
Definition append_space (d : data) (s : space) : data :=
  mkData (storage d) (parts d ++ [(s, 0)]) (initial d) 0 (pot d).
(** 40-48. *)
Fixpoint add_last (l : list (space * Z)) (st : Z) : list (space * Z) :=
  match l with
  | [] => []
  | [(s, z)] => [(s, z + st)]
  | x :: l' => x :: add_last l' st
  end.
Definition append_storage (d : data) (st : Z) : data :=
  mkData (storage d + st) (add_last (parts d) st)
    (match parts d with [] => initial d + st | _ => initial d end) (safe d + st) (pot d).
(** 63-84. *)
Fixpoint resolve_parts (l : list (space * Z)) (id : nat) (len : Z) : option (Z * list (space * Z)) :=
  match l with
  | [] => None
  | (s, z) :: l' =>
      if Nat.eqb (sid s) id then Some (z + len, l')
      else match resolve_parts l' id len with
           | Some (c, r) => Some (0, (s, z + c) :: r)
           | None => None
           end
  end.
Definition resolve_data (d : data) (id : nat) (len : Z) : data :=
  match resolve_parts (parts d) id len with
  | Some (c, r) => mkData (storage d + len) r (initial d + c) (safe d) (pot d)
  | None => d
  end.
(** 129-151. *)
Fixpoint last_part (l : list (space * Z)) : option (space * Z) :=
  match l with [] => None | [x] => Some x | _ :: l' => last_part l' end.
Definition last_storage (d : data) : Z := match last_part (parts d) with None => initial d | Some (_, z) => z end.
Definition first_space (d : data) : option space := match parts d with [] => None | (s, _) :: _ => Some s end.
(** 96-127. *)
Definition has_alignment (d : data) (a : alignment) : bool :=
  match last_part (parts d) with
  | None => storage d mod boundary a =? byte a
  | Some (s, z) =>
      if boundary a >? boundary (salign s) then false
      else (boundary (salign s) + byte (salign s) + z) mod boundary a =? byte a
  end.
Definition need_space_alignment (d : data) (a : alignment) : bool :=
  match last_part (parts d) with
  | None => false
  | Some (s, _) => boundary (salign s) <? boundary a
  end.
Definition align_data (d : data) (a : alignment) : data :=
  if need_space_alignment d a then d
  else append_storage d ((boundary a - last_storage d mod boundary a + byte a) mod boundary a).

(** location_counter.cpp:321-337 [register_space]. *)
Definition register_space (l : loctr) (a : alignment) (k : skind) : loctr * space :=
  let s := mkSp (next l) k a in
  let d := append_space (curr l) s in
  (mkLoctr (mkData (storage d) (parts d) (initial d) (safe d) true) (older l) (S (next l)) (starting l), s).
(** 29-42. *)
Definition new_loctr (starting : bool) : loctr :=
  let l := mkLoctr (new_data true) [] 0 starting in
  if starting then l else fst (register_space l no_align LoctrBegin).
(** 168-185 [check_available_value]; with an empty [older] the assertion fails. *)
Definition check_available_value (l : loctr) : loctr :=
  if pot (curr l) then l
  else match older l with
       | [] => l
       | prev :: rest =>
           if storage prev <=? storage (curr l) then
             let d := curr l in
             mkLoctr (mkData (storage d) (parts d) (initial d) (safe d) (pot prev)) rest (next l) (starting l)
           else l
       end.
Definition with_curr (l : loctr) (d : data) : loctr := mkLoctr d (older l) (next l) (starting l).
(** 49-65 [reserve_storage_area]; the returned address is the location of the resulting state. *)
Definition reserve (l : loctr) (n : Z) (a : alignment) : loctr * option space :=
  let '(l1, sp) :=
    if has_alignment (curr l) a then (l, None)
    else if need_space_alignment (curr l) a then
           let '(l', s) := register_space l a Alignment in (l', Some s)
         else (with_curr l (align_data (curr l) a), None) in
  (check_available_value (with_curr l1 (append_storage (curr l1) n)), sp).
(** 69-72. *)
Definition register_ordinary (l : loctr) (a : alignment) : loctr * space := register_space l a Ordinary.

(** An address in terms of this location counter: spaces with counts and an offset.  [t_same] and
    [t_dependent] are the results of [in_same_loctr] and [has_dependant_space]. *)
Record target := mkTarget { t_spaces : list (nat * Z); t_offset : Z; t_same : bool; t_dependent : bool }.
Definition space_list (d : data) : list (nat * Z) := map (fun e => (sid (fst e), 1)) (parts d).
Fixpoint eqb_spaces (a b : list (nat * Z)) : bool :=
  match a, b with
  | [], [] => true
  | (i, n) :: a', (j, m) :: b' => Nat.eqb i j && (n =? m) && eqb_spaces a' b'
  | _, _ => false
  end.
(** The padding to a boundary, 0 meaning none: location_counter.cpp:83, address_resolver.cpp:67. *)
Definition pad (v b : Z) : Z := if b =? 0 then 0 else (b - v mod b) mod b.

(** 81-119 [set_value]; [None]: throws. *)
Definition set_value (l : loctr) (t : target) (b o : Z) (undef : bool) : option (loctr * option space) :=
  if negb (t_same t) || (negb (t_dependent t) && (t_offset t + pad (t_offset t) b + o <? 0)) then None
  else
    let push k :=
      let l' := mkLoctr (new_data false) (curr l :: older l) (next l) (starting l) in
      let '(l'', s) := register_space l' no_align k in Some (l'', Some s) in
    if undef then push LoctrUnknown
    else if negb (eqb_spaces (space_list (curr l)) (t_spaces t))
            || (storage (curr l) - t_offset t >? safe (curr l))
            || (negb (b =? 0) && (storage (curr l) - t_offset t >? safe (curr l) + o))
         then push LoctrSet
         else
           let diff := t_offset t - storage (curr l) in
           let l1 := if (diff <? 0) && pot (curr l)
                     then let d := curr l in
                          mkLoctr (mkData (storage d) (parts d) (initial d) (safe d) false) (d :: older l) (next l) (starting l)
                     else l in
           Some (check_available_value (with_curr l1 (append_storage (curr l1) diff)), None).

(** 121-162 [set_available_value]: no space when the highest value is known, or a new space and the
    addresses (sum of spaces, offset) it is the maximum of. *)
Definition drop_lower (l : loctr) : loctr :=
  match older l with
  | prev :: rest =>
      if negb (pot (curr l)) && (storage (curr l) <=? storage prev) then mkLoctr prev rest (next l) (starting l) else l
  | [] => l
  end.
Definition strip_begin (l : list (space * Z)) : list (space * Z) :=
  match l with
  | (s, _) :: l' => match skind_of s with LoctrBegin => l' | _ => l end
  | [] => []
  end.
Definition candidate := (list nat * Z)%type.
Definition candidates (l : loctr) : list candidate :=
  map (fun d => (map (fun e => sid (fst e)) (if starting l then parts d else strip_begin (parts d)), storage d))
    (rev (curr l :: older l)).
Definition only_value (l : loctr) : bool :=
  match older l with
  | [] => match parts (curr l) with [] => true | [_] => negb (starting l) | _ => false end
  | _ => false
  end.
Definition set_available_value (l : loctr) : loctr * option (space * list candidate) :=
  let l1 := drop_lower l in
  if only_value l1 then (l1, None)
  else
    let d0 := new_data true in
    let d1 := if starting l1 then d0
              else match first_space (last (older l1) (curr l1)) with Some s => append_space d0 s | None => d0 end in
    let l2 := mkLoctr d1 (curr l1 :: older l1) (next l1) (starting l1) in
    let '(l3, s) := register_space l2 no_align LoctrMax in
    (l3, Some (s, candidates l1)).

(** ordinary_assembly_context.cpp:142-170, 172-188, 249-264. *)
Definition org (l : loctr) (t : target) (b o : Z) (undef : bool) : option (loctr * option space) :=
  match set_value l t b o undef with
  | None => None
  | Some (l1, Some s) => Some (l1, Some s)
  | Some (l1, None) => Some (reserve l1 o (mkAl 0 (if b =? 0 then 1 else b)))
  end.
(** The alignment space, if one is created, and the new space with its candidates, if one is. *)
Definition org_available (l : loctr) (b o : Z) : loctr * option space * option (space * list candidate) :=
  match set_available_value l with
  | (l1, Some x) => (l1, None, Some x)
  | (l1, None) =>
      let '(l2, sp) := if b =? 0 then (l1, None) else reserve l1 0 (mkAl 0 b) in
      (fst (reserve l2 o no_align), sp, None)
  end.

(** address.cpp:48-60: the length an alignment space gets at offset [v]. *)
Definition alignment_length (a : alignment) (v : Z) : Z :=
  if negb (v mod boundary a =? byte a) then (boundary a - v mod boundary a + byte a) mod boundary a else 0.
(** address_resolver.cpp:65-69 and symbol_dependency_tables.cpp:91-92. *)
Definition set_length (v b o : Z) : Z := let r := v + pad v b + o in if 0 <=? r then r else 0.
(** address_resolver.cpp:100-114: the first greatest one; the scan starts from -1. *)
Fixpoint first_greatest (l : list Z) (best cur : Z) : Z :=
  match l with
  | [] => cur
  | x :: l' => if x >? best then first_greatest l' x x else first_greatest l' best cur
  end.
Definition max_length (l : list Z) (b o : Z) : Z := set_length (first_greatest l (-1) (hd 0 l)) b o.

(** location_counter.cpp:202-219 [resolve_space]. *)
Definition starts_with (id : nat) (d : data) : bool :=
  match first_space d with Some s => Nat.eqb (sid s) id | None => false end.
(** The entries from the one before the first entry (other than the very first) that starts with the
    space, oldest first. *)
Fixpoint drop_before (id : nat) (prev : data) (l all : list data) : list data :=
  match l with
  | [] => all
  | d :: l' => if starts_with id d then prev :: d :: l' else drop_before id d l' all
  end.
Definition loctr_resolve (l : loctr) (s : space) (len : Z) : loctr :=
  let all := rev (curr l :: older l) in
  let kept := match skind_of s, all with
              | LoctrMax, d :: l' => drop_before (sid s) d l' all
              | _, _ => all
              end in
  match rev (map (fun d => resolve_data d (sid s) len) kept) with
  | c :: o => mkLoctr c o (next l) (starting l)
  | [] => l
  end.

(** location_counter.cpp:187-200 and ordinary_assembly_context.cpp:227-245: the offset at which each
    location counter of a section begins, given their final states. *)
Fixpoint layout (start : Z) (ls : list loctr) : list Z :=
  match ls with
  | [] => []
  | l :: ls' =>
      let l' := match first_space (last (older l) (curr l)) with
                | Some s => if starting l then l else loctr_resolve l s start
                | None => l
                end in
      start :: match parts (curr l') with
               | [] => layout (storage (curr l')) ls'
               | _ => []
               end
  end.
