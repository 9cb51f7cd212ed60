(** Model of the conversion between the URIs of the client and the names of files (not on Windows):

      language_server/src/feature.cpp:27-104 (uri_to_path, path_to_uri),
      language_server/src/dap/dap_feature.cpp:23-42 (convert_path), utils/src/native_path.cpp (lexically_normal)

    What is not in the repository and follows its documentation: the parts of a URI (RFC 3986, of a URI that is
    valid), percent encoding and decoding of the network library, std::filesystem::path::lexically_normal with /
    as the only separator.  [None]: an exception. *)
From Coq Require Import String List NArith Bool.
From Verif Require Import Common.
Import ListNotations.
Open Scope list_scope.
Open Scope N_scope.

Definition SLASH : N := 47.
Definition PERCENT : N := 37.
Definition BACKSLASH : N := 92.

(** ** Percent encoding (network library) *)
Definition unreserved (c : N) : bool :=
  is_digit c || ((65 <=? c) && (c <=? 90)) || ((97 <=? c) && (c <=? 122)) || existsb (N.eqb c) (s2b "-._~").
Definition hex_char (d : N) : N := if d <? 10 then 48 + d else 55 + d.
Definition encode_char (ignore : bytes) (c : N) : bytes :=
  if unreserved c || existsb (N.eqb c) ignore then [c] else [PERCENT; hex_char (c / 16); hex_char (c mod 16)].
Definition hex_value (c : N) : option N :=
  if is_digit c then Some (c - 48)
  else if (65 <=? c) && (c <=? 70) then Some (c - 55)
  else if (97 <=? c) && (c <=? 102) then Some (c - 87) else None.
Fixpoint decode (s : bytes) : option bytes :=
  match s with
  | [] => Some []
  | c :: r =>
      if c =? PERCENT then
        match r with
        | h :: l :: r' =>
            match hex_value h, hex_value l, decode r' with
            | Some a, Some b, Some t => Some (a * 16 + b :: t)
            | _, _, _ => None
            end
        | _ => None
        end
      else match decode r with Some t => Some (c :: t) | None => None end
  end.

(** ** The parts of a URI (network library) *)
Fixpoint span (f : N -> bool) (s : bytes) : bytes * bytes :=
  match s with
  | c :: r => if f c then let (a, b) := span f r in (c :: a, b) else ([], s)
  | [] => ([], [])
  end.
Definition not_in (l : bytes) (c : N) : bool := negb (existsb (N.eqb c) l).
(** scheme, authority, path *)
Definition parse_uri (u : bytes) : option (bytes * bytes * bytes) :=
  let (scheme, r) := span (not_in (s2b ":")) u in
  match r with
  | [] => None
  | _ :: r =>
      let (authority, r) := if starts_with (s2b "//") r then span (not_in (s2b "/?#")) (skipn 2 r) else ([], r) in
      Some (scheme, authority, fst (span (not_in (s2b "?#")) r))
  end.

(** ** lexically_normal (std::filesystem) *)
Fixpoint split (s : bytes) : list bytes :=
  match s with
  | [] => [[]]
  | c :: r => if c =? SLASH then [] :: split r
              else match split r with x :: l => (c :: x) :: l | [] => [[c]] end
  end.
Definition DOT : bytes := s2b ".".
Definition DOTS : bytes := s2b "..".
(** the names kept, the last one first *)
Definition keep (absolute : bool) (stack : list bytes) (c : bytes) : list bytes :=
  if bytes_eqb c [] || bytes_eqb c DOT then stack
  else if bytes_eqb c DOTS then
    match stack with
    | top :: r => if bytes_eqb top DOTS then c :: stack else r
    | [] => if absolute then [] else [c]
    end
  else c :: stack.
Fixpoint join (l : list bytes) : bytes :=
  match l with [] => [] | [x] => x | x :: r => x ++ SLASH :: join r end.
Definition lexically_normal (p : bytes) : bytes :=
  match p with
  | [] => []
  | c :: _ =>
      let absolute := c =? SLASH in
      let names := split p in
      let stack := fold_left (keep absolute) names [] in
      let final := last names [] in
      let open := bytes_eqb final [] || bytes_eqb final DOT || bytes_eqb final DOTS in
      match stack with
      | [] => if absolute then [SLASH] else DOT
      | top :: _ =>
          (if absolute then [SLASH] else []) ++ join (rev stack) ++ (if open && negb (bytes_eqb top DOTS) then [SLASH] else [])
      end
  end.

(** ** feature.cpp *)
(** 25 *)
Definition untitled : bytes := s2b "untitled".
(** 27-72 *)
Definition uri_to_path (u : bytes) : option bytes :=
  match parse_uri u with
  | None => None
  | Some (scheme, authority, path) =>
      if bytes_eqb scheme untitled then Some u
      else if negb (bytes_eqb scheme (s2b "file")) then Some []
      else if bytes_eqb path [] then Some []
      else match decode (if negb (bytes_eqb authority []) then authority ++ path else path) with
           | Some p => Some (lexically_normal p)
           | None => None
           end
  end.
(** 74-104 *)
Definition path_to_uri (path : bytes) : bytes :=
  if starts_with untitled path then path
  else s2b "file://" ++ flat_map (fun c => encode_char (s2b "/.%;=") (if c =? BACKSLASH then SLASH else c)) path.

(** ** dap_feature.cpp:23-42: the current directory of the server is a parameter *)
Definition is_absolute (p : bytes) : bool := match p with c :: _ => c =? SLASH | [] => false end.
Definition convert_path (cwd : bytes) (uri_format : bool) (path : bytes) : option bytes :=
  if uri_format then uri_to_path path
  else Some (lexically_normal (if is_absolute path then path else cwd ++ SLASH :: path)).
