(** Text of a file: UTF-8 repair, line table, positions, edits.
    parser_library/src/workspaces/file_impl.cpp, parser_library/src/lsp/text_data_ref_t.cpp. *)
From Coq Require Import List NArith ZArith Arith Bool.
From Verif Require Import Common.
Import ListNotations.

(** file_impl.cpp:207-231, the byte classes. A [char] is its unsigned byte value. *)
Definition one_byte (b : N) : bool := (N.land b 128 =? 0)%N.
Definition cont_byte (b : N) : bool := (N.land b 192 =? 128)%N.
Definition two_byte (b : N) : bool := (N.land b 224 =? 192)%N.
Definition three_byte (b : N) : bool := (N.land b 240 =? 224)%N.
Definition four_byte (b : N) : bool := (N.land b 248 =? 240)%N.

(** file_impl.cpp:277-329 [replace_non_utf8_chars]; the text from index [i] on. *)
Definition char_len (b : N) : option nat :=
  if one_byte b then Some 1 else if two_byte b then Some 2
  else if three_byte b then Some 3 else if four_byte b then Some 4 else None.

(** Lines 300-307: the next [k] bytes exist and are continuation bytes. *)
Fixpoint conts (k : nat) (t : bytes) : bool :=
  match k, t with
  | O, _ => true
  | S _, [] => false
  | S k', b :: t' => cont_byte b && conts k' t'
  end.

Fixpoint repair_loop (fuel : nat) (t : bytes) : bytes :=
  match fuel, t with
  | S f, b :: t' =>
      match char_len b with
      | Some len =>
          if conts (len - 1) t' then firstn len t ++ repair_loop f (skipn len t)
          else [239; 191; 189]%N ++ repair_loop f t'
      | None => [239; 191; 189]%N ++ repair_loop f t'
      end
  | _, _ => []
  end.
(** Every step consumes a byte, so [length t] steps are enough. *)
Definition repair (t : bytes) : bytes := repair_loop (length t) t.

(** file_impl.cpp:73-108 [find_newlines]: the offsets pushed, [i] the index of the next char. *)
Fixpoint find_newlines_from (i : nat) (was_r : bool) (t : bytes) : list nat :=
  match t with
  | [] => if was_r then [i] else []
  | ch :: t' =>
      if was_r then
        if (ch =? 10)%N then (i + 1) :: find_newlines_from (i + 1) false t'
        else if (ch =? 13)%N then i :: find_newlines_from (i + 1) true t'
        else i :: find_newlines_from (i + 1) false t'
      else
        if (ch =? 10)%N then (i + 1) :: find_newlines_from (i + 1) false t'
        else if (ch =? 13)%N then find_newlines_from (i + 1) true t'
        else find_newlines_from (i + 1) false t'
  end.
Definition find_newlines (t : bytes) : list nat := find_newlines_from 0 false t.

(** file_impl.cpp:331-337 [create_line_indices]; also did_open (115-118) and the whole-text
    did_change (185-187). *)
Definition create_line_indices (t : bytes) : list nat := 0 :: find_newlines t.

(** file_impl.cpp:233-275 [index_from_position]. [None]: the exception of line 263. *)
Fixpoint ifp_loop (fuel : nat) (text : bytes) (i counter stop : nat) : option nat :=
  match fuel with
  | O => Some i
  | S f =>
      if (counter <? stop) then
        match nth_error text i with
        | None => Some i
        | Some b =>
            if one_byte b then ifp_loop f text (i + 1) (counter + 1) stop
            else if four_byte b then ifp_loop f text (i + 4) (counter + 2) stop
            else if three_byte b then ifp_loop f text (i + 3) (counter + 1) stop
            else if two_byte b then ifp_loop f text (i + 2) (counter + 1) stop
            else None
        end
      else Some i
  end.
(** The index grows with every step, so [S (length text)] steps are enough. *)
Definition index_from_position (text : bytes) (lines : list nat) (line col : nat) : option nat :=
  match nth_error lines line with
  | None => Some (length text)
  | Some i => ifp_loop (S (length text)) text i 0 col
  end.

(** * Edits *)

(** A [std::vector<size_t>]; access outside its bounds is undefined behaviour ([None]). *)
Definition vget (l : list nat) (i : nat) : option nat := nth_error l i.
Fixpoint vset (l : list nat) (i v : nat) : option (list nat) :=
  match l, i with
  | [], _ => None
  | _ :: l', O => Some (v :: l')
  | x :: l', S i' => match vset l' i' v with Some l'' => Some (x :: l'') | None => None end
  end.

(** [x + char_diff] with [char_diff = new_text.size() - (end - begin)], all in [size_t]. *)
Definition shift (new_size b e x : nat) : nat :=
  Z.to_nat ((Z.of_nat x + (Z.of_nat new_size - (Z.of_nat e - Z.of_nat b))) mod 2 ^ 64).

(** Lines 154-157: [k] remaining iterations, [i] going down. *)
Fixpoint loop_down (k i diff : nat) (sh : nat -> nat) (l : list nat) : option (list nat) :=
  match k with
  | O => Some l
  | S k' => match vget l (i - diff) with
            | None => None
            | Some x => match vset l i (sh x) with
                        | None => None
                        | Some l' => loop_down k' (i - 1) diff sh l'
                        end
            end
  end.
(** Lines 163-166. *)
Fixpoint loop_up (k i diff : nat) (sh : nat -> nat) (l : list nat) : option (list nat) :=
  match k with
  | O => Some l
  | S k' => match vget l (i + diff) with
            | None => None
            | Some x => match vset l i (sh x) with
                        | None => None
                        | Some l' => loop_up k' (i + 1) diff sh l'
                        end
            end
  end.
(** Lines 173-176. *)
Fixpoint loop_fill (new_lines : list nat) (i b : nat) (l : list nat) : option (list nat) :=
  match new_lines with
  | [] => Some l
  | x :: xs => match vset l i (x + b) with
               | None => None
               | Some l' => loop_fill xs (i + 1) b l'
               end
  end.

Record file := mkFile { text : bytes; lines : list nat; version : N }.

Inductive change_result := Changed (f : file) | CThrow | CUndef.

(** [text_.replace(begin, end - begin, new_text)]; a negative length is a huge [size_t] and is
    cut at the end of the text. *)
Definition replace (t : bytes) (b e : nat) (n : bytes) : bytes :=
  firstn b t ++ n ++ (if b <=? e then skipn (e) t else []).

(** file_impl.cpp:128-180 [did_change] with a range.  A range whose end line is before its start
    line makes [old_lines_count] a huge number and the loops run out of the vector. *)
Definition did_change (f : file) (sline scol eline ecol : nat) (new_text : bytes) : change_result :=
  match index_from_position (text f) (lines f) sline scol,
        index_from_position (text f) (lines f) eline ecol with
  | Some b, Some e =>
      if length (text f) <? b then CThrow  (* std::string::replace: out_of_range *)
      else
      let text' := replace (text f) b e new_text in
      let new_lines := find_newlines new_text in
      let sh := shift (length new_text) b e in
      if eline <? sline then CUndef else
      let old_count := eline - sline in
      let new_count := length new_lines in
      let tbl :=
        if old_count <? new_count then
          let diff := new_count - old_count in
          let l1 := lines f ++ repeat 0 diff in
          loop_down (length l1 - 1 - (eline + diff)) (length l1 - 1) diff sh l1
        else
          let diff := old_count - new_count in
          if length (lines f) <? diff then None
          else
            match loop_up (length (lines f) - diff - (sline + 1 + new_count)) (sline + 1 + new_count)
                          diff sh (lines f) with
            | None => None
            | Some l1 => Some (firstn (length l1 - diff) l1)
            end
      in
      match tbl with
      | None => CUndef
      | Some l1 =>
          match loop_fill new_lines (sline + 1) b l1 with
          | None => CUndef
          | Some l2 => Changed (mkFile text' l2 ((version f + 1) mod 2 ^ 64)%N)
          end
      end
  | _, _ => CThrow
  end.

(** file_impl.cpp:182-189 [did_change] of the whole text, 110-122 [did_open]. *)
Definition did_change_whole (f : file) (new_text : bytes) : file :=
  mkFile new_text (create_line_indices new_text) ((version f + 1) mod 2 ^ 64)%N.
Definition did_open (new_text : bytes) (v : N) : file :=
  mkFile new_text (create_line_indices new_text) v.

Inductive edit := Whole (t : bytes) | Ranged (sline scol eline ecol : nat) (t : bytes).

Definition apply_edit (f : file) (e : edit) : change_result :=
  match e with
  | Whole t => Changed (did_change_whole f t)
  | Ranged a b c d t => did_change f a b c d t
  end.
Fixpoint apply_edits (f : file) (es : list edit) : change_result :=
  match es with
  | [] => Changed f
  | e :: es' => match apply_edit f e with Changed f' => apply_edits f' es' | r => r end
  end.

(** * text_data_ref_t: a text with its line table.  [None]: [std::out_of_range] from [at] or the
    exception of index_from_position. *)
Definition view (t : bytes) (from len : nat) : option bytes :=
  if from <? length t then Some (firstn len (skipn from t)) else None.

(** text_data_ref_t.cpp:26-33 [get_line]. *)
Definition get_line (t : bytes) (line : nat) : option bytes :=
  let li := create_line_indices t in
  match nth_error li line with
  | None => Some []
  | Some b => view t b ((match nth_error li (line + 1) with Some e => e | None => length t end) - b)
  end.
(** text_data_ref_t.cpp:35-42 [get_line_beginning]. *)
Definition get_line_beginning (t : bytes) (line col : nat) : option bytes :=
  let li := create_line_indices t in
  match nth_error li line with
  | None => Some []
  | Some b => match index_from_position t li line col with
              | None => None
              | Some e => view t b (e - b)
              end
  end.
(** text_data_ref_t.cpp:46-52 [get_character_before]; 0 stands for ['\0']. *)
Definition get_character_before (t : bytes) (line col : nat) : option N :=
  match col with
  | O => Some 0%N
  | S c => match index_from_position t (create_line_indices t) line c with
           | None => None
           | Some i => nth_error t i
           end
  end.
(** text_data_ref_t.cpp:54-61 [get_range_content]. The length [end_i - start_i] wraps if negative;
    a view that reaches past the text is undefined behaviour once read, and is modelled as what is
    there. *)
Definition get_range_content (t : bytes) (sline scol eline ecol : nat) : option bytes :=
  let li := create_line_indices t in
  match index_from_position t li sline scol, index_from_position t li eline ecol with
  | Some s, Some e =>
      if length t <=? s then Some []
      else if s <=? e then Some (firstn (e - s) (skipn s t)) else Some (skipn s t)
  | _, _ => None
  end.
