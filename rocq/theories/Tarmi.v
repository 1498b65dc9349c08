(** Model of tarmi.py: letter classes, word and rafsi shapes. *)
From Verif Require Import Str Data.

(** tarmi.py:12-22.  The integer codes matter only as score terms. *)
Inductive tarmi := HYPHEN | CVCCV | CVCC | CCVCV | CCVC | CVC | CVhV | CCV | CVV | OTHER_RAFSI.

(** tarmi.py:13-22: the integer value of each code. *)
Definition tarmi_val (t : tarmi) : Z :=
  match t with
  | HYPHEN => 0 | CVCCV => 1 | CVCC => 2 | CCVCV => 3 | CCVC => 4 | CVC => 5
  | CVhV => 6 | CCV => 7 | CVV => 8 | OTHER_RAFSI => 9
  end%Z.

Definition tarmi_eqb (a b : tarmi) : bool := Z.eqb (tarmi_val a) (tarmi_val b).
Definition tarmi_in (a : tarmi) (l : list tarmi) : bool := existsb (tarmi_eqb a) l.

(** tarmi.py:24 *)
Definition SONORANT_CONSONANTS : str := Eval vm_compute in L "lmnr".

(** tarmi.py:26-31: word types (the strings GISMU, ZIhEVLA, ...). *)
Inductive wtype := GISMU | ZIhEVLA | LUJVO | EXTENDED_LUJVO | RAFSI | CMEVLA.
Definition wtype_eqb (a b : wtype) : bool :=
  match a, b with
  | GISMU, GISMU | ZIhEVLA, ZIhEVLA | LUJVO, LUJVO | EXTENDED_LUJVO, EXTENDED_LUJVO
  | RAFSI, RAFSI | CMEVLA, CMEVLA => true
  | _, _ => false
  end.

(** tarmi.py:33-35 *)
Inductive yset := STANDARD | ALLOW_Y | FORCE_Y.
Definition yset_eqb (a b : yset) : bool :=
  match a, b with
  | STANDARD, STANDARD | ALLOW_Y, ALLOW_Y | FORCE_Y, FORCE_Y => true
  | _, _ => false
  end.

(** tarmi.py:37-39 *)
Inductive cset := CLUSTER | TWO_CONSONANTS | ONE_CONSONANT.
Definition cset_eqb (a b : cset) : bool :=
  match a, b with
  | CLUSTER, CLUSTER | TWO_CONSONANTS, TWO_CONSONANTS | ONE_CONSONANT, ONE_CONSONANT => true
  | _, _ => false
  end.

(** tarmi.py:50-72, SettingsIterator.__next__: item number [index] of the
    enumeration, for any list of option lists.  [setting[k]] with [k] in range
    is [nth_error]; an empty option list gives possibilities = 0, so no item is
    ever produced and the modulus is never taken. *)
Fixpoint settings_item {A} (settings : list (list A)) (index base : nat) : list (option A) :=
  match settings with
  | [] => []
  | setting :: rest =>
      nth_error setting ((index / base) mod (length setting))
      :: settings_item rest index (base * length setting)
  end.

(** tarmi.py:51-56 *)
Definition possibilities {A} (settings : list (list A)) : nat :=
  fold_left (fun acc (s : list A) => acc * length s) settings 1.

(** tarmi.py:58-72: everything a [for] loop over the iterator yields. *)
Definition settings_iter {A} (settings : list (list A)) : list (list (option A)) :=
  map (fun i => settings_item settings i 1) (seq 0 (possibilities settings)).

(** tarmi.py:75-82.  Every call passes one character. *)
Definition VOWELS : str := Eval vm_compute in L "aeiou".
Definition is_vowel (c : char) : bool := memc c VOWELS.

(** tarmi.py:85-92 *)
Definition CONSONANTS : str := Eval vm_compute in L "bcdfgjklmnprstvxz".
Definition is_consonant (c : char) : bool := memc c CONSONANTS.

(** tarmi.py:95-104 *)
Definition is_glide (s : str) : bool :=
  match s with
  | c0 :: c1 :: _ => (N.eqb c0 c_i || N.eqb c0 c_u) && is_vowel c1
  | _ => false
  end.

(** tarmi.py:107-114: fullmatch of [aeioubcdfgjklmnprstvxz']+ *)
Definition is_lojban_letter (c : char) : bool :=
  is_vowel c || is_consonant c || N.eqb c c_h.
Definition is_only_lojban_characters (s : str) : bool :=
  match s with [] => false | _ => forallb is_lojban_letter s end.

(** tarmi.py:117-127 *)
Definition contains_consonant (s : str) : bool := existsb is_consonant s.

(** tarmi.py:130-145 *)
Definition is_gismu_shape (v : str) : bool :=
  match v with
  | [a; b; c; d; e] =>
      if negb (is_consonant a && is_consonant d && is_vowel e) then false
      else if is_vowel b && is_consonant c then true
      else if is_consonant b && is_vowel c then true
      else false
  | _ => false
  end.

(** MZ_VALID if allow_mz else VALID *)
Definition valid_pairs (mz : bool) : list str := if mz then MZ_VALID else VALID.

(** tarmi.py:148-161 *)
Definition is_gismu (v : str) (mz : bool) : bool :=
  if negb (is_gismu_shape v) then false
  else match v with
       | a :: b :: _ =>
           if is_vowel b then mems (slice 2 4 v) (valid_pairs mz)
           else mems (firstn 2 v) INITIAL
       | _ => false (* excluded by the shape test *)
       end.

(** tarmi.py:171-176: the test made by add_to_result; [true] means it raises. *)
Definition bad_junction (new_cluster new_vowels : str) : bool :=
  match new_cluster with
  | c :: _ =>
      (N.eqb c c_i && mems (lastn 2 new_vowels) (Ls ["ai"; "ei"; "oi"]%string))
      || (N.eqb c c_u && str_eqb (lastn 2 new_vowels) (L "au"))
  | [] => false
  end.

(** tarmi.py:182-193, the loop of split_vowel_cluster; [result] accumulates to
    the left as in result.insert(0, ...). *)
Fixpoint svc_loop (fuel : nat) (vowels : str) (result : list str) : res (list str) :=
  match fuel with
  | O => Err OutOfFuel
  | S f =>
      if (3 <? length vowels) && mems (lastn 3 vowels) FOLLOW_VOWEL_CLUSTERS then
        if bad_junction (lastn 3 vowels) (dropl 3 vowels) then Err DecompositionError
        else svc_loop f (dropl 3 vowels) (lastn 3 vowels :: result)
      else if (2 <? length vowels) && mems (lastn 2 vowels) FOLLOW_VOWEL_CLUSTERS then
        if bad_junction (lastn 2 vowels) (dropl 2 vowels) then Err DecompositionError
        else svc_loop f (dropl 2 vowels) (lastn 2 vowels :: result)
      else if mems vowels START_VOWEL_CLUSTERS || mems vowels FOLLOW_VOWEL_CLUSTERS then
        Ok (vowels :: result)
      else Err DecompositionError
  end.

(** tarmi.py:164-193 *)
Definition split_vowel_cluster (vowels : str) : res (list str) :=
  svc_loop (S (length vowels)) vowels [].

(** tarmi.py:196-211 *)
Definition is_zihevla_initial_cluster (cluster : str) : bool :=
  if 3 <? length cluster then false
  else if length cluster =? 3 then
    negb (negb (mems (firstn 2 cluster) INITIAL) || negb (mems (skipn 1 cluster) ZIhEVLA_INITIAL))
  else if length cluster =? 2 then mems cluster INITIAL
  else true.

Definition is_sonorant (c : char) : bool := memc c SONORANT_CONSONANTS.
(** the class [bcdfgjkpstvxz] of tarmi.py:236 *)
Definition OBSTRUENTS : str := Eval vm_compute in L "bcdfgjkpstvxz".
Definition is_obstruent (c : char) : bool := memc c OBSTRUENTS.

(** The regular expressions of tarmi.py:231-237.  [C] is [is_consonant],
    [S] is [is_sonorant], [O] is [is_obstruent].  fullmatch explores, in
    priority order: optional C taken, then not; the star of CS pairs longest
    first; the first alternative before the second.  Only whether it matches
    and the text of group -2 are used. *)

(** tarmi.py:231,233: (C)?((?:CS)star)? on the whole string; group -2 is then the
    optional first consonant, which always passes is_zihevla_initial_cluster. *)
Fixpoint re_pairs (s : str) : bool :=
  match s with
  | [] => true
  | c1 :: c2 :: t => is_consonant c1 && is_sonorant c2 && re_pairs t
  | _ => false
  end.
Definition re_head (s : str) : option (option str) :=
  match s with
  | c :: t => if is_consonant c && re_pairs t then Some (Some [c])
              else if re_pairs s then Some None else None
  | [] => Some None
  end.

(** tarmi.py:236: (?:(O C? S?)|(C)) on the whole rest; the result is group 3. *)
Definition re_tail (s : str) : option (option str) :=
  match s with
  | [a] => if is_obstruent a then Some (Some s) else if is_consonant a then Some None else None
  | [a; b] => if is_obstruent a && (is_consonant b || is_sonorant b) then Some (Some s) else None
  | [a; b; c] => if is_obstruent a && is_consonant b && is_sonorant c then Some (Some s) else None
  | _ => None
  end.
Fixpoint re_star_tail (s : str) : option (option str) :=
  match s with
  | c1 :: c2 :: t =>
      if is_consonant c1 && is_sonorant c2 then
        match re_star_tail t with Some g => Some g | None => re_tail s end
      else re_tail s
  | _ => re_tail s
  end.
(** tarmi.py:235-237 *)
Definition re_full (s : str) : option (option str) :=
  match s with
  | c :: t =>
      if is_consonant c then
        match re_star_tail t with Some g => Some g | None => re_star_tail s end
      else re_star_tail s
  | [] => re_star_tail s
  end.

(** tarmi.py:214-250 *)
Definition is_zihevla_middle_cluster (cluster : str) : bool :=
  if length cluster =? 3 then
    if match cluster with [_; b; _] => is_sonorant b | _ => false end then true
    else mems (firstn 2 cluster) VALID && mems (skipn 1 cluster) INITIAL
  else if length cluster <? 3 then true
  else
    let m :=
      if match lastn 2 cluster with c :: _ => N.eqb c c_m | [] => false end
         && mems (lastn 2 cluster) INITIAL then
        if is_zihevla_initial_cluster (lastn 3 cluster)
        then re_head (dropl 3 cluster)
        else re_head (dropl 2 cluster)
      else re_full cluster in
    match m with
    | None => false
    | Some None => true
    | Some (Some g) => is_zihevla_initial_cluster g
    end.

(** tarmi.py:269-312 *)
Definition rafsi_tarmi (rafsi : str) : tarmi :=
  match rafsi with
  | [] => OTHER_RAFSI
  | r0 :: _ =>
      if str_eqb rafsi (L "'y") then HYPHEN
      else if negb (is_consonant r0) && negb (length rafsi =? 1) then OTHER_RAFSI
      else match rafsi with
           | [a] => if is_vowel a then OTHER_RAFSI else HYPHEN
           | [a; b; c] =>
               if negb (is_vowel c) then
                 if is_vowel b && is_consonant c then CVC else OTHER_RAFSI
               else if is_vowel b then CVV
               else if is_consonant b then CCV
               else OTHER_RAFSI
           | [a; b; c; d] =>
               if is_vowel b then
                 if is_vowel d then
                   if N.eqb c c_h then CVhV else OTHER_RAFSI
                 else if is_consonant c && is_consonant d then CVCC
                 else OTHER_RAFSI
               else if is_consonant b && is_vowel c && is_consonant d then CCVC
               else OTHER_RAFSI
           | [a; b; c; d; e] =>
               if is_gismu_shape rafsi then
                 if is_vowel c then CCVCV else CVCCV
               else OTHER_RAFSI
           | _ => OTHER_RAFSI
           end
  end.

(** tarmi.py:253-266 *)
Definition is_valid_rafsi (rafsi : str) (mz : bool) : bool :=
  let raftai := rafsi_tarmi rafsi in
  if tarmi_in raftai [CVCCV; CVCC] then mems (slice 2 4 rafsi) (valid_pairs mz)
  else if tarmi_in raftai [CCVCV; CCVC; CCV] then mems (firstn 2 rafsi) INITIAL
  else (Z.leb 1 (tarmi_val raftai) && Z.leb (tarmi_val raftai) 8)%bool.

Definition is_hy (c : char) : bool := N.eqb c c_h || N.eqb c c_y.

(** tarmi.py:315-322: re.sub("^['y]+|['y]+$", "", rafsi).  Simplification: "$"
    also matches before a final newline; no caller passes a newline. *)
Definition strip_hyphens (rafsi : str) : str := strip_char is_hy rafsi.

(** tarmi.py:325-332 *)
Definition tarmi_ignoring_hyphen (rafsi : str) : tarmi := rafsi_tarmi (strip_hyphens rafsi).
