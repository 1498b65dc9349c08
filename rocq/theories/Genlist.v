(** make_rafsi_list.py: the script that writes rafsi.py. *)
From Verif Require Import Str Data Tarmi Rafsi Core.
From Coq Require Import List Bool NArith ZArith.
Import ListNotations.

(** make_rafsi_list.py:20-22, 28-31, 39-40, 47: a <valsi> element: the attributes word and type, the
    texts of the <rafsi> children, the text of <notes> (the empty string if there
    is none).  Simplification: every <rafsi> has a text, every <valsi> a word. *)
Record valsi := mkValsi { v_word : str; v_type : str; v_rafsi : list str; v_notes : str }.

(** A set is a list without repetitions, a dict an association list in insertion
    order.  Simplification: the order in which a set is iterated is a parameter of
    [generate] where it can be observed. *)
Definition set_add (r : str) (s : list str) : list str := if mems r s then s else s ++ [r].
Definition sdict := list (str * list str).
(** try: d[w].add(r) except KeyError: d[w] = {r}, make_rafsi_list.py:42-45 *)
Fixpoint dict_add (w r : str) (d : sdict) : sdict :=
  match d with
  | [] => [(w, [r])]
  | (k, s) :: d' => if str_eqb k w then (k, set_add r s) :: d' else (k, s) :: dict_add w r d'
  end.
(** d[w] = set(), make_rafsi_list.py:35 *)
Fixpoint dict_reset (w : str) (d : sdict) : sdict :=
  match d with
  | [] => [(w, [])]
  | (k, s) :: d' => if str_eqb k w then (k, []) :: d' else (k, s) :: dict_reset w d'
  end.

(** substring test of make_rafsi_list.py:48 *)
Fixpoint is_prefix (p s : str) : bool :=
  match p, s with
  | [], _ => true
  | x :: p', y :: s' => N.eqb x y && is_prefix p' s'
  | _, _ => false
  end.
Fixpoint has_sub (p s : str) : bool :=
  is_prefix p s || match s with [] => false | _ :: s' => has_sub p s' end.

(** [a-z] in the regular expression of make_rafsi_list.py:50 *)
Definition is_az (c : char) : bool := (N.leb 97 c && N.leb c 122)%N.
(** The regular expression of make_rafsi_list.py:50 at the start of [s]: any
    character, "-", a consonant letter, a letter, perhaps an apostrophe, a letter,
    "-", then a character that is no letter or the end; gives the second group and
    what follows the match.  ("$" also matches before a final newline, but then
    the other alternative takes the newline.) *)
Definition re_end (r rest : str) : option (str * str) :=
  match rest with
  | [] => Some (r, [])
  | c :: rest' => if is_az c then None else Some (r, rest')
  end.
Definition re_at (s : str) : option (str * str) :=
  match s with
  | _ :: d :: c :: x :: y :: z :: rest =>
      if N.eqb d c_dash && is_consonant c && is_az x then
        if N.eqb y c_h then
          match rest with
          | e :: rest' => if is_az z && N.eqb e c_dash then re_end [c; x; y; z] rest' else None
          | [] => None
          end
        else if is_az y && N.eqb z c_dash then re_end [c; x; y] rest else None
      else None
  | _ => None
  end.
(** re.findall (make_rafsi_list.py:50-51): leftmost matches, each after the end of the one before; every step
    drops at least one character, so the length is enough fuel *)
Fixpoint re_findall (fuel : nat) (s : str) : list str :=
  match fuel with
  | 0 => []
  | S f =>
      match s with
      | [] => []
      | _ :: s' =>
          match re_at s with
          | Some (r, rest) => r :: re_findall f rest
          | None => re_findall f s'
          end
      end
  end.
Definition proposed_rafsi (notes : str) : list str := re_findall (length notes) notes.

(** make_rafsi_list.py:25-27 *)
Record gstate := mkG { g_raf : sdict; g_exp : sdict; g_prio : list str }.
(** make_rafsi_list.py:40-45 and 82-86 *)
Definition add_assigned (w : str) (g : gstate) (r : str) : gstate :=
  mkG (dict_add w r (g_raf g)) (g_exp g) (g_prio g ++ [r]).
(** make_rafsi_list.py:53-58 *)
Definition add_proposed (w : str) (g : gstate) (r : str) : gstate :=
  match r with
  | _ :: r1 :: _ =>
      if is_consonant r1 && negb (mems (firstn 2 r) INITIAL) then g
      else mkG (g_raf g) (dict_add w r (g_exp g)) (g_prio g)
  | _ => g
  end.
(** make_rafsi_list.py:14-23 *)
Definition gimste (vs : list valsi) : list str :=
  map (fun v => firstn 4 (v_word v)) (filter (fun v => str_eqb (v_type v) (L "gismu")) vs).
(** make_rafsi_list.py:39-58 *)
Definition add_valsi (g : gstate) (v : valsi) : gstate :=
  let g := fold_left (add_assigned (v_word v)) (v_rafsi v) g in
  if has_sub (L "rafsi") (lower (v_notes v))
  then fold_left (add_proposed (v_word v)) (proposed_rafsi (v_notes v)) g
  else g.
(** make_rafsi_list.py:29-58, the body of the loop *)
Definition valsi_step (gim : list str) (g : gstate) (v : valsi) : gstate :=
  let t := v_type v in
  if mems t [L "gismu"; L "experimental gismu"] then
    if str_eqb t (L "experimental gismu") && mems (firstn 4 (v_word v)) gim then g
    else add_valsi (mkG (dict_reset (v_word v) (g_raf g)) (g_exp g) (g_prio g)) v
  else if mems t [L "cmavo"; L "experimental cmavo"] then add_valsi g v
  else g.
(** make_rafsi_list.py:61-79 *)
Definition EXCEPTIONS : sdict := Eval vm_compute in
  map (fun kv => (L (fst kv), map L (snd kv)))
  [("xi", ["xix"]); ("ditcu", ["dit"]); ("jidge", ["jid"]); ("ronci", ["roc"]); ("supso", ["sus"]); ("zai'e", ["zam"]);
   ("gelse", ["ge'e"; "ges"]); ("tsako", ["tso"]); ("kilma", ["kim"]); ("jicfo", ["cfo"]); ("fizbu", ["zbu"]);
   ("je'ebzi", ["jeb"]); ("mu'umgu", ["mug"]); ("va'arga", ["va'a"])]%string.
(** make_rafsi_list.py:80-86 *)
Definition exception_step (g : gstate) (kv : str * list str) : gstate := fold_left (add_assigned (fst kv)) (snd kv) g.
(** make_rafsi_list.py:88-94 *)
Definition merge_step (prio : list str) (d : sdict) (kv : str * list str) : sdict :=
  fold_left (fun d r => if mems r prio then d else dict_add (fst kv) r d) (snd kv) d.
(** sorted(..., key=lambda x: rafsi_tarmi(x) % 9), make_rafsi_list.py:97: a stable sort *)
Definition sort_key (r : str) : Z := (tarmi_val (rafsi_tarmi r) mod 9)%Z.
Fixpoint insert_key (r : str) (l : list str) : list str :=
  match l with
  | [] => [r]
  | x :: l' => if Z.leb (sort_key r) (sort_key x) then r :: l else x :: insert_key r l'
  end.
Definition sort_rafsi (l : list str) : list str := fold_right insert_key [] l.
(** make_rafsi_list.py:14-97: what is written to rafsi.py; [order] is the order
    in which list() enumerates a set *)
Definition collect (vs : list valsi) : gstate :=
  fold_left exception_step EXCEPTIONS (fold_left (valsi_step (gimste vs)) vs (mkG [] [] [])).
Definition generate (order : list str -> list str) (vs : list valsi) : sdict :=
  let g := collect vs in
  map (fun kv => (fst kv, sort_rafsi (order (snd kv)))) (fold_left (merge_step (g_prio g)) (g_exp g) (g_raf g)).

(** The four files that are written.  repr() of a string, as used by str() of a
    list.  Simplification: the string has no backslash, no double quote beside an
    apostrophe and only printable characters, so that nothing is escaped. *)
Definition quoted (q : char) (s : str) : str := [q] ++ s ++ [q].
Definition py_repr (s : str) : str := if existsb (N.eqb c_h) s then quoted 34%N s else quoted 39%N s.
(** sep.join(l) *)
Fixpoint str_join (sep : str) (l : list str) : str :=
  match l with
  | [] => []
  | x :: l' => match l' with [] => x | _ :: _ => x ++ sep ++ str_join sep l' end
  end.
Definition py_list (rs : list str) : str := L "[" ++ str_join (L ", ") (map py_repr rs) ++ L "]".
Definition newline : str := [10%N].
(** make_rafsi_list.py:99-104 *)
Definition py_line (kv : str * list str) : str := L "    " ++ quoted 34%N (fst kv) ++ L ": " ++ py_list (snd kv) ++ L "," ++ newline.
Definition py_file (d : sdict) : str := L "RAFSI_LIST = {" ++ newline ++ flat_map py_line d ++ L "}" ++ newline.
(** make_rafsi_list.py:106-111 *)
Definition ts_line (kv : str * list str) : str := L "  [" ++ quoted 34%N (fst kv) ++ L ", " ++ py_list (snd kv) ++ L "]," ++ newline.
Definition ts_file (d : sdict) : str :=
  L "const RAFSI_LIST: Map<string, string[]> = new Map([" ++ newline ++ flat_map ts_line d ++ L "]);" ++ newline.
(** make_rafsi_list.py:113-118 *)
Definition js_line (kv : str * list str) : str := L "    [" ++ quoted 34%N (fst kv) ++ L ", " ++ py_list (snd kv) ++ L "]," ++ newline.
Definition js_file (d : sdict) : str := L "const RAFSI_LIST = new Map([" ++ newline ++ flat_map js_line d ++ L "]);" ++ newline.
(** make_rafsi_list.py:120-126 *)
Definition rs_quote (rs : list str) : str := match rs with [] => [] | _ :: _ => [34%N] end.
Definition rs_line (kv : str * list str) : str :=
  L "        (""" ++ fst kv ++ L """, vec![" ++ rs_quote (snd kv) ++ str_join (L """, """) (snd kv) ++ rs_quote (snd kv) ++ L "]" ++ L ")," ++ newline.
Definition rs_file (d : sdict) : str :=
  L "//! Contains the static RAFSI, a map from words to their affixes."
  ++ newline ++ L "use std::{collections::HashMap, sync::LazyLock};" ++ newline ++ L "/// Big giant rafsi list." ++ newline
  ++ L "pub static RAFSI: LazyLock<HashMap<&'static str, Vec<&'static str>>> = LazyLock::new(|| {" ++ newline ++ L "    HashMap::from([" ++ newline
  ++ flat_map rs_line d ++ L "    ])" ++ newline ++ L "});" ++ newline.
