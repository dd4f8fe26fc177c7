(** LineIndex.v — crates/ide_db/src/line_index.rs, the position conversions of
    crates/lua-analyzer/src/{from_proto,to_proto}.rs and apply_document_changes of
    crates/lua-analyzer/src/lsp_utils.rs. u32/usize arithmetic panics on overflow. *)
From Verif Require Import Base TextEdit Stdx.

(** line_index.rs:6-11. FxHashMap<u32, Vec<Utf16Char>> is an association list; a Utf16Char
    (29-35) is the pair (start, end). *)
Record line_index := mkLI { li_newlines : list nat; li_utf16 : list (nat * list (nat * nat)) }.
(** line_index.rs:13-27 LineCol and LineColUtf16. *)
Record line_col := mkLC { lc_line : nat; lc_col : nat }.

Definition newline : char := 10%N.
(** char::is_ascii *)
Definition is_ascii (c : char) : bool := N.ltb c 128.

(** line_index.rs:69-72 and 88-90 *)
Definition save_chars (lines : list (nat * list (nat * nat))) (line : nat) (chars : list (nat * nat)) :=
  match chars with [] => lines | _ => lines ++ [(line, chars)] end.

(** line_index.rs:62-92, the loop of LineIndex::new and what follows it. *)
Fixpoint li_loop (t : text) (newlines : list nat) (lines : list (nat * list (nat * nat))) (chars : list (nat * nat))
  (row col line : nat) : res line_index :=
  match t with
  | [] => Ok (mkLI newlines (save_chars lines line chars))
  | c :: t' =>
    let n := utf8_len c in
    let? row := uadd row n in
    if N.eqb c newline then
      let? line' := uadd line 1 in
      li_loop t' (newlines ++ [row]) (save_chars lines line chars) [] row 0 line'
    else
      let? stop := uadd col n in
      li_loop t' newlines lines (if is_ascii c then chars else chars ++ [(col, stop)]) row stop line
  end.
(** line_index.rs:54-93 LineIndex::new *)
Definition li_new (t : text) : res line_index := li_loop t [0] [] [] 0 0 0.

(** line_index.rs:95-100 line_col *)
Definition li_line_col (li : line_index) (o : nat) : res line_col :=
  let? k := partition_point (li_newlines li) (fun it => it <=? o) in
  let? line := usub k 1 in
  let? start := runwrap (nth_error (li_newlines li) line) in
  let? col := usub o start in
  Ok (mkLC line col).
(** line_index.rs:102-104 offset *)
Definition li_offset (li : line_index) (lc : line_col) : res nat :=
  let? start := runwrap (nth_error (li_newlines li) (lc_line lc)) in uadd start (lc_col lc).

(** FxHashMap::get *)
Fixpoint assoc {A} (k : nat) (l : list (nat * A)) : option A :=
  match l with [] => None | (k', v) :: l' => if k =? k' then Some v else assoc k l' end.

(** line_index.rs:39-50 Utf16Char::len and len_utf16 *)
Definition u16c_len (c : nat * nat) : res nat := usub (snd c) (fst c).
Definition u16c_len16 (n : nat) : nat := if n =? 4 then 2 else 1.

(** line_index.rs:116-130 utf8_to_utf16_col *)
Fixpoint to16_loop (chars : list (nat * nat)) (col r : nat) : res nat :=
  match chars with
  | [] => Ok r
  | c :: cs =>
    if snd c <=? col then
      let? n := u16c_len c in
      let? d := usub n (u16c_len16 n) in
      let? r := usub r d in
      to16_loop cs col r
    else Ok r
  end.
Definition utf8_to_utf16_col (li : line_index) (line col : nat) : res nat :=
  match assoc line (li_utf16 li) with Some cs => to16_loop cs col col | None => Ok col end.
(** line_index.rs:132-146 utf16_to_utf8_col *)
Fixpoint to8_loop (chars : list (nat * nat)) (col : nat) : res nat :=
  match chars with
  | [] => Ok col
  | c :: cs =>
    if fst c <? col then
      let? n := u16c_len c in
      let? d := usub n (u16c_len16 n) in
      let? col := uadd col d in
      to8_loop cs col
    else Ok col
  end.
Definition utf16_to_utf8_col (li : line_index) (line col : nat) : res nat :=
  match assoc line (li_utf16 li) with Some cs => to8_loop cs col | None => Ok col end.
(** line_index.rs:106-114 to_utf8, to_utf16 *)
Definition to_utf8 (li : line_index) (lc : line_col) : res line_col :=
  let? col := utf16_to_utf8_col li (lc_line lc) (lc_col lc) in Ok (mkLC (lc_line lc) col).
Definition to_utf16 (li : line_index) (lc : line_col) : res line_col :=
  let? col := utf8_to_utf16_col li (lc_line lc) (lc_col lc) in Ok (mkLC (lc_line lc) col).

(** from_proto.rs:14-20 offset; an lsp_types::Position is a line_col in UTF-16 units. *)
Definition from_proto_offset (li : line_index) (p : line_col) : res nat :=
  let? lc := to_utf8 li p in li_offset li lc.
(** from_proto.rs:22-26 text_range; TextRange::new asserts start <= end. *)
Definition from_proto_range (li : line_index) (s e : line_col) : res range :=
  let? s := from_proto_offset li s in
  let? e := from_proto_offset li e in
  let? _ := rassert (s <=? e) in Ok (mkRange s e).
(** to_proto.rs:7-11 position *)
Definition to_proto_position (li : line_index) (o : nat) : res line_col :=
  let? lc := li_line_col li o in to_utf16 li lc.
(** to_proto.rs:13-17 range *)
Definition to_proto_range (li : line_index) (r : range) : res (line_col * line_col) :=
  let? s := to_proto_position li (r_start r) in
  let? e := to_proto_position li (r_end r) in Ok (s, e).

(** lsp_types::TextDocumentContentChangeEvent (range_length is not used). *)
Record change_event := mkChange { ce_range : option (line_col * line_col); ce_text : text }.

(** lsp_utils.rs:32-44 IndexValid: [None] is All, [Some l] is UpToLineExclusive(l). *)
Definition covers (v : option nat) (line : nat) : bool := match v with Some to => line <? to | None => true end.

(** lsp_utils.rs:47-62 *)
Fixpoint changes_loop (t : text) (li : line_index) (v : option nat) (cs : list change_event) : res text :=
  match cs with
  | [] => Ok t
  | ch :: cs' =>
    match ce_range ch with
    | Some (s, e) =>
      let? li := if covers v (lc_line e) then Ok li else li_new t in
      let? r := from_proto_range li s e in
      let? t' := indel_apply (mkIndel (ce_text ch) r) t in
      changes_loop t' li (Some (lc_line s)) cs'
    | None => changes_loop (ce_text ch) li (Some 0) cs'
    end
  end.
(** lsp_utils.rs:21-63 apply_document_changes *)
Definition apply_document_changes (t : text) (cs : list change_event) : res text :=
  let? li := li_new t in changes_loop t li None cs.
