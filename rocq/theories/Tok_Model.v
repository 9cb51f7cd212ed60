(** Semantic tokens: from highlighted ranges to the number array sent to the client. *)
From Coq Require Import List NArith Bool.
Import ListNotations.
Local Open Scope N_scope.

(** [size_t] arithmetic. *)
Definition size_lim : N := 2 ^ 64.
Definition sz_sub (a b : N) : N := (a + size_lim - b) mod size_lim.

(** [token_info] - parser_library/include/protocol.h:236-254, [hl_scopes] as its number
    (protocol.h:45-64). *)
Record token := Tok { sl : N; sc : N; el : N; ec : N; scope : N }.

(** [continuation_info::continue_column], [continuation_column] -
    parser_library/src/semantics/highlighting_info.h:37-38 (never changed anywhere). *)
Definition continue_column : N := 15.
Definition continuation_column : N := 71.

(** [source_info_processor::add_hl_symbol] -
    parser_library/src/semantics/source_info_processor.cpp:37-63: the tokens pushed to
    [hl_info_.lines] for one symbol when highlighting is collected.  The fuel is the number of
    lines the symbol spans; [split] supplies exactly that.  [continuation_positions] is written
    but never read and is left out. *)
Fixpoint split_loop (fuel : nat) (rest : token) : list token :=
  match fuel with
  | O => if (sl rest =? el rest) && (sc rest =? ec rest) then [] else [rest]
  | S f =>
      if sl rest <? el rest then
        Tok (sl rest) (sc rest) (sl rest) continuation_column (scope rest)
          :: split_loop f (Tok (sl rest + 1) continue_column (el rest) (ec rest) (scope rest))
      else if (sl rest =? el rest) && (sc rest =? ec rest) then [] else [rest]
  end.
Definition split (t : token) : list token := split_loop (N.to_nat (el t - sl t)) t.

(** [process_hl_symbols] / the lexer's direct calls - source_info_processor.cpp:25-31: the
    vector before [finish]. *)
Definition collect (collect_hl_info : bool) (symbols : list token) : list token :=
  if collect_hl_info then flat_map split symbols else [].

(** [token_info::operator<] - protocol.h:246-251.  [finish] (source_info_processor.cpp:33) is
    [std::sort] with it; its result enters the theorems as any permutation sorted by it. *)
Definition tok_lt (a b : token) : bool :=
  (sl a <? sl b) || ((sl a =? sl b) && (sc a <? sc b)).

(** [convert_tokens_to_num_array] - language_server/src/lsp/feature_language_features.cpp:200-235.
    [last = None] stands for the pointer to [first_virtual_token], whose range is (0,0). *)
Definition tok_length (t : token) : N :=
  if ec t <? sc t then (if sc t <=? 72 then 72 - sc t else 1) else ec t - sc t.

Fixpoint convert_loop (last : option token) (ts : list token) : list N :=
  match ts with
  | [] => []
  | cur :: rest =>
      let ll := match last with Some t => sl t | None => 0 end in
      let lc := match last with Some t => sc t | None => 0 end in
      let delta_line := sz_sub (sl cur) ll in
      let delta_char := if negb (ll =? sl cur) then sc cur else sz_sub (sc cur) lc in
      if (delta_line =? 0) && (delta_char =? 0)
         && (match last with Some _ => true | None => false end)
      then convert_loop last rest
      else delta_line :: delta_char :: tok_length cur :: scope cur :: 0
             :: convert_loop (Some cur) rest
  end.
Definition convert (ts : list token) : list N := convert_loop None ts.
