(** Model of the limit on the diagnostics of programs that have no configuration:

      parser_library/src/lib_config.cpp:22-69, workspaces/workspace.cpp:105-128, 200-217, 237-239, 358,
      workspace_manager_impl.h:185-186, language_server/src/lsp/feature_workspace_folders.cpp:158-167

    for one workspace.  What an analysis finds and which files it depends on, and whether the program has
    a processor group, is given with each event. *)
From Coq Require Import String List NArith ZArith Bool.
From Verif Require Import Common Cfg_Model.
Import ListNotations.
Open Scope list_scope.
Open Scope Z_scope.

Definition file := bytes.
(** The diagnostics that the files hold *)
Definition table := file -> list N.
Definition set {A} (f : file) (x : A) (t : file -> A) : file -> A := fun g => if bytes_eqb g f then x else t g.

(** lib_config: the optional limit *)
Definition config := option Z.
(** lib_config.cpp:24-30 *)
Definition default_config : config := Some 10.

(** get<int64_t>: numbers are converted with static_cast, anything else throws *)
Definition to_int64 (n : Z) : Z := (n + 2 ^ 63) mod 2 ^ 64 - 2 ^ 63.
Definition get_int64 (j : json) : res Z :=
  match j with
  | JUInt n => Ok (to_int64 n)
  | JInt z => Ok z
  | JFloat t => if (- 2 ^ 63 <=? t) && (t <? 2 ^ 63) then Ok t else UB
  | _ => Throw
  end.
(** 32-46 *)
Definition load_settings (j : json) : res config :=
  match find_ "diagnosticsSuppressLimit" j with
  | Some x => do n <- get_int64 x; Ok (Some (if n <? 0 then 0 else n))
  | None => Ok None
  end.
(** 48-56 *)
Definition load_conf (c : pgm_conf) : config :=
  match diagnostics_suppress_limit c with Some n => Some n | None => None end.
(** 63-69 *)
Definition combine_two_configs (a b : config) : config := match a with None => b | _ => a end.
(** 58-61 *)
Definition fill_missing_settings (a b : config) : config := combine_two_configs (combine_two_configs a b) default_config.

Record state := mkSt {
  local_config : config; global_config : config; diags : table; notified : file -> bool;
  messages : list file  (** the files of the messages shown *) }.
Definition initial : state := mkSt None None (fun _ => []) (fun _ => false) [].

Inductive event :=
| Settings (params : list json)           (** the answer to workspace/configuration *)
| Loaded (c : pgm_conf) (after : table)   (** both configuration files were loaded; what is then analysed again *)
| Analysed (f : file) (deps : list file) (after : table) (cancelled implicit : bool)
| Closed (f : file) (after : table).

(** workspace.cpp:128 *)
Definition get_config (s : state) : config := fill_missing_settings (local_config s) (global_config s).
(** Comparison of an int64_t with an optional: nothing is less than any number *)
Definition exceeds (n : Z) (c : config) : bool := match c with Some l => l <? n | None => true end.

(** 105-120 *)
Definition delete_diags (f : file) (deps : list file) (s : state) : state :=
  let d := fold_left (fun t g => set g [] t) deps (set f [] (diags s)) in
  mkSt (local_config s) (global_config s) d (set f true (notified s))
       (if notified s f then messages s else messages s ++ [f]).

(** None: undefined behaviour *)
Definition step (e : event) (s : state) : option state :=
  match e with
  | Settings params =>
      match params with
      | [] => Some s
      | j :: _ =>
          match load_settings j with
          | Ok c => Some (mkSt (local_config s) c (diags s) (notified s) (messages s))
          | Throw => Some s (* caught by server::call_method *)
          | UB => None
          end
      end
  | Loaded c after => Some (mkSt (load_conf c) (global_config s) after (notified s) (messages s))
  | Analysed f deps after cancelled implicit =>
      let s1 := mkSt (local_config s) (global_config s) after (notified s) (messages s) in
      if cancelled then Some s1
      else if implicit && exceeds (Z.of_nat (length (after f))) (get_config s1) then Some (delete_diags f deps s1)
      else Some (mkSt (local_config s1) (global_config s1) (diags s1) (set f false (notified s1)) (messages s1))
  | Closed f after => Some (mkSt (local_config s) (global_config s) after (set f false (notified s)) (messages s))
  end.

Fixpoint run (h : list event) (s : state) : option state :=
  match h with
  | [] => Some s
  | e :: r => match step e s with Some s' => run r s' | None => None end
  end.
