(** Model of tools.py, jvozba.py and katna.py.

    The Python functions are mutually recursive across the three modules.  Each
    is modelled as a plain definition over the two functions every cycle passes
    through, analyse_brivla ([ana]) and jvokaha ([jvk]); the knot is tied at the
    end by recursion on fuel. *)
From Verif Require Import Str Data Tarmi Rafsi.

(** The keyword arguments shared by the API. *)
Record settings := mkSettings {
  y_hyphens : yset; exp_rafsi_shapes : bool; consonants : cset; glides : bool; allow_mz : bool
}.
Definition default_settings := mkSettings STANDARD false CLUSTER false false.

(** jvozba.py:501 calls is_slinkuhi, but jvozba.py:8-12 neither defines nor
    imports that name (it lives in tools.py:57).  [Unbound] is the code as it
    stands: evaluating the name raises NameError.  [Bound] is the same code with
    is_slinkuhi added to the import list of jvozba.py:9. *)
Inductive binding := Unbound | Bound.

Definition ana_t := settings -> str -> res (wtype * list str).
Definition jvk_t := yset -> cset -> bool -> bool -> str -> res (list str).

(** ** tools.py, part 1 *)

(** tools.py:10-27 *)
Definition normalise (word : str) : res str :=
  match word with
  | [] => Err IndexError                                   (* word[0] *)
  | c :: r =>
      let word := if N.eqb c c_dot then r else word in
      let word := lower word in
      let word := map (fun c => if N.eqb c 104 then c_h else c) word in
      Ok (filter (fun c => negb (N.eqb c c_comma)) word)
  end.

(** ** katna.py, part 1 *)

(** katna.py:67-94.  [i] indexes [other]; the enumerate index is unused. *)
Fixpoint compare_loop (corr other : list str) (i : nat) : res bool :=
  match corr with
  | [] => Ok (i =? length other)
  | part :: corr' =>
      o <- idxl other i ;;
      if str_eqb part o then compare_loop corr' other (S i)
      else
        let i' :=
          if (0 <? i) && (i <? length other - 1)
             && mems o (Ls ["r"; "n"]%string)
             && tarmi_in (rafsi_tarmi (nth (i - 1) other [])) [CVV; CVhV]
             && ((1 <? i) || tarmi_in (rafsi_tarmi (nth (i + 1) other [])) [CCVCV; CCVC; CCV])
          then S i else i in
        o' <- idxl other i' ;;
        if str_eqb part o' then compare_loop corr' other (S i') else Ok false
  end.
Definition compare_lujvo_pieces (corr other : list str) : res bool := compare_loop corr other 0.

(** katna.py:174-190: how many letters of [lujvo] are taken as a hyphen after the
    piece [prev] (None before the first piece). *)
Definition hyphen_len (yh : yset) (prev : option str) (lujvo : str) : res (option nat) :=
  match prev, lujvo with
  | Some prev, l0 :: _ =>
      if negb (length prev =? 1) then
        if N.eqb l0 c_y then Ok (Some 1)
        else
          rn <- (if yset_eqb yh FORCE_Y then Ok false
                 else if str_eqb (firstn 2 lujvo) (L "nr") then Ok true
                 else if N.eqb l0 c_r then
                   l1 <- idx lujvo 1 ;;
                   Ok (is_consonant l1 && negb (N.eqb l1 c_r))
                 else Ok false) ;;
          if rn && tarmi_in (rafsi_tarmi prev) [CVV; CVhV] then Ok (Some 1)
          else if negb (yset_eqb yh STANDARD) && str_eqb (firstn 2 lujvo) (L "'y")
          then Ok (Some 2)
          else Ok None
      else Ok None
  | _, _ => Ok None
  end.

(** katna.py:153-247, the loop of jvokaha_2; [res_] is in reading order. *)
Fixpoint jvokaha2_loop (fuel : nat) (yh : yset) (mz : bool) (original lujvo : str) (res_ : list str)
  : res (list str) :=
  match fuel with
  | O => Err OutOfFuel
  | S f =>
      match lujvo with
      | [] => Ok res_
      | _ :: _ =>
          hy <- hyphen_len yh (last_opt res_) lujvo ;;
          match hy with
          | Some k => jvokaha2_loop f yh mz original (skipn k lujvo) (res_ ++ [firstn k lujvo])
          | None =>
              (* katna.py:195-198 *)
              if tarmi_eqb (rafsi_tarmi (firstn 3 lujvo)) CVV
                 && mems (slice 1 3 lujvo) (Ls ["ai"; "ei"; "oi"; "au"]%string)
              then jvokaha2_loop f yh mz original (skipn 3 lujvo) (res_ ++ [firstn 3 lujvo])
              (* katna.py:201-204 *)
              else if tarmi_eqb (rafsi_tarmi (firstn 4 lujvo)) CVhV
              then jvokaha2_loop f yh mz original (skipn 4 lujvo) (res_ ++ [firstn 4 lujvo])
              else
                (* katna.py:207-223 *)
                let four := tarmi_in (rafsi_tarmi (firstn 4 lujvo)) [CVCC; CCVC] in
                if four && (if match nth_error lujvo 1 with Some c => is_vowel c | None => false end
                            then negb (mems (slice 2 4 lujvo) (valid_pairs mz))
                            else negb (mems (firstn 2 lujvo) INITIAL))
                then Err InvalidClusterError
                else if four && (length lujvo =? 4)
                then jvokaha2_loop f yh mz original (skipn 5 lujvo) (res_ ++ [firstn 4 lujvo])
                else if four && match nth_error lujvo 4 with Some c => N.eqb c c_y | None => false end
                then jvokaha2_loop f yh mz original (skipn 5 lujvo) (res_ ++ [firstn 4 lujvo; [c_y]])
                (* katna.py:226-228 *)
                else if tarmi_in (rafsi_tarmi lujvo) [CVCCV; CCVCV]
                then Ok (res_ ++ [lujvo])
                (* katna.py:230-235 *)
                else if tarmi_eqb (rafsi_tarmi (firstn 3 lujvo)) CVC then
                  if mems (slice 2 5 lujvo) BANNED_TRIPLES then Err InvalidClusterError
                  else jvokaha2_loop f yh mz original (skipn 3 lujvo) (res_ ++ [firstn 3 lujvo])
                (* katna.py:237-244 *)
                else if tarmi_eqb (rafsi_tarmi (firstn 3 lujvo)) CCV then
                  if negb (mems (firstn 2 lujvo) INITIAL) then Err InvalidClusterError
                  else if str_eqb lujvo original && str_eqb (slice 3 5 lujvo) (L "'y")
                  then Err NotBrivlaError
                  else jvokaha2_loop f yh mz original (skipn 3 lujvo) (res_ ++ [firstn 3 lujvo])
                (* katna.py:247 *)
                else Err DecompositionError
          end
      end
  end.

(** katna.py:153-247.  Every iteration but the last shortens [lujvo], so
    length + 1 iterations suffice (proved). *)
Definition jvokaha_2 (yh : yset) (mz : bool) (lujvo : str) : res (list str) :=
  jvokaha2_loop (S (length lujvo)) yh mz lujvo lujvo [].

(** ** tools.py, part 2 *)

(** try: f; return True; except (DecompositionError, InvalidClusterError): return False *)
Definition succeeds {A} (r : res A) : res bool :=
  match r with
  | Ok _ => Ok true
  | Err DecompositionError | Err InvalidClusterError => Ok false
  | Err e => Err e
  end.

(** tools.py:57-75 *)
Definition is_slinkuhi (jvk : jvk_t) (yh : yset) (mz : bool) (string : str) : res bool :=
  c <- idx string 0 ;;
  if is_vowel c then Ok false
  else succeeds (jvk yh CLUSTER false mz (L "to" ++ string)).

(** tools.py:30-54 *)
Definition is_gismu_or_lujvo (jvk : jvk_t) (yh : yset) (mz : bool) (s : str) : res bool :=
  if length s <? 5 then Ok false
  else
    l <- idx_last s ;;
    if negb (is_vowel l) then Ok false
    else if is_gismu s mz then Ok true
    else succeeds (jvk yh CLUSTER false mz s).

(** tools.py:213-236 *)
Definition is_brivla (ana : ana_t) (st : settings) (valsi : str) : res bool :=
  match ana st valsi with
  | Ok (t, _) => Ok (negb (wtype_eqb t CMEVLA))
  | Err NotBrivlaError => Ok false
  | Err e => Err e
  end.

(** Loop variables of check_zihevla_or_rafsi, tools.py:106-111. *)
Record zstate := mkZ {
  z_pos : nat; z_syl : nat; z_cluster : option nat; z_cons : nat; z_final : nat
}.

Fixpoint windows (n : nat) (s : str) : list str :=
  match s with
  | [] => []
  | _ :: r => if length s <? n then [] else firstn n s :: windows n r
  end.

(** tools.py:112-181, the while loop of check_zihevla_or_rafsi. *)
Fixpoint zloop (fuel : nat) (mz : bool) (valsi_copy valsi : str) (z : zstate) : res zstate :=
  match valsi with
  | [] => Ok z
  | v0 :: vr =>
      match fuel with
      | O => Err OutOfFuel
      | S f =>
          let pos := z_pos z in
          if is_consonant v0 then
            let chunk := take_while is_consonant valsi in
            let rest := drop_while is_consonant valsi in
            let first := (2 <=? length chunk) && match z_cluster z with None => true | _ => false end in
            if first && (1 <? z_cons z) then Err NotZihevlaError
            else if (z_syl z =? 0) && (2 <=? length chunk) && negb (mems (firstn 2 chunk) INITIAL)
            then Err NotZihevlaError
            else if negb (forallb (fun p => mems p (valid_pairs mz)) (windows 2 chunk))
            then Err NotZihevlaError
            else if existsb (fun p => mems p BANNED_TRIPLES) (windows 3 chunk)
            then Err NotZihevlaError
            else if negb (if pos =? 0 then is_zihevla_initial_cluster chunk
                          else is_zihevla_middle_cluster chunk)
            then Err NotZihevlaError
            else zloop f mz valsi_copy rest
                   (mkZ (pos + length chunk) (z_syl z)
                        (if first then Some pos else z_cluster z)
                        (z_cons z + length chunk) pos)
          else if is_vowel v0 then
            let chunk := take_while is_vowel valsi in
            let rest := drop_while is_vowel valsi in
            match split_vowel_cluster chunk with
            | Err DecompositionError => Err NotZihevlaError
            | Err e => Err e
            | Ok syllables =>
                (* valsi_copy[pos - 1]: Python's index -1 is the last character *)
                prev <- (if pos =? 0 then idx_last valsi_copy else idx valsi_copy (pos - 1)) ;;
                if match z_cluster z with None => true | _ => false end
                   && negb (N.eqb prev c_h)
                   && (2 <=? length syllables)
                   && (pos + length (concat syllables) =? length valsi_copy)
                then Err NotZihevlaError
                else if negb (pos =? 0)
                        && match syllables with
                           | s0 :: _ => mems s0 FOLLOW_VOWEL_CLUSTERS
                           | [] => false
                           end
                then Err NotZihevlaError
                else zloop f mz valsi_copy rest
                       (mkZ (pos + length chunk) (z_syl z + length syllables) (z_cluster z)
                            (z_cons z) (z_final z))
            end
          else if N.eqb v0 c_h then
            let rest := vr in
            if (pos <? 1)
               || negb match nth_error valsi_copy (pos - 1) with Some c => is_vowel c | None => false end
            then Err NotZihevlaError
            else if match rest with [] => true | _ => false end
                    || negb match nth_error valsi_copy (pos + 1) with Some c => is_vowel c | None => false end
            then Err NotZihevlaError
            else zloop f mz valsi_copy rest
                   (mkZ (pos + 1) (z_syl z) (z_cluster z) (z_cons z) (z_final z))
          else Err NotZihevlaError
      end
  end.

(** tools.py:188,193: is_brivla(s, y_hyphens=y_hyphens), other options default. *)
Definition dflt_y (yh : yset) : settings := mkSettings yh false CLUSTER false false.

(** tools.py:191-194: the loop over i in range(1, cluster_pos); [k] runs over the
    remaining values of [i].  Returns whether some suffix is a brivla. *)
Fixpoint falls_apart (ana : ana_t) (yh : yset) (valsi : str) (p : nat) (is_ : list nat) : res bool :=
  match is_ with
  | [] => Ok false
  | i :: rest =>
      c <- idx valsi (p - i) ;;
      let suffix := skipn (p - i) valsi in
      if is_consonant c || is_glide suffix then
        b <- is_brivla ana (dflt_y yh) suffix ;;
        if b then Ok true else falls_apart ana yh valsi p rest
      else falls_apart ana yh valsi p rest
  end.

(** tools.py:78-210 *)
Definition check_zihevla_or_rafsi (ana : ana_t) (jvk : jvk_t)
    (require_zihevla : bool) (yh : yset) (exp mz : bool) (valsi : str) : res wtype :=
  if require_zihevla && (length valsi <? 4) then Err NotZihevlaError
  else
    z <- zloop (length valsi) mz valsi valsi (mkZ 0 0 None 0 0) ;;
    (* tools.py:183-194 *)
    _ <- (if (z_syl z <? 2) && (require_zihevla || negb exp) then Err NotZihevlaError
          else if 2 <? z_syl z then
            match z_cluster z with
            | Some p =>
                if 0 <? p then
                  b <- is_brivla ana (dflt_y yh) (skipn p valsi) ;;
                  if b then Err NotZihevlaError
                  else
                    b' <- falls_apart ana yh valsi p (seq 1 (p - 1)) ;;
                    if b' then Err NotZihevlaError else Ok tt
                else Ok tt
            | None => Ok tt
            end
          else Ok tt) ;;
    (* tools.py:196-210 *)
    match z_cluster z with
    | None =>
        if require_zihevla then Err NotZihevlaError
        else
          c0 <- idx valsi 0 ;;
          if negb (is_consonant c0) && negb exp then Err NotZihevlaError
          else if 1 <? z_cons z then Err NotZihevlaError
          else if 0 <? z_final z then Err NotZihevlaError
          else Ok RAFSI
    | Some _ =>
        c0 <- idx valsi 0 ;;
        vc <- (if is_vowel c0 then c1 <- idx valsi 1 ;; Ok (is_consonant c1) else Ok false) ;;
        if vc then Ok ZIhEVLA
        else
          b <- is_slinkuhi jvk yh mz valsi ;;
          if b then Err NotZihevlaError else Ok ZIhEVLA
    end.

(** ** tools.py, part 3: analyse_brivla *)

(** Loop variables of the part loop, tools.py:304-309. *)
Record astate := mkA {
  a_parts : list str; a_hyphen : str; a_cluster : bool; a_mahor : bool; a_break : bool; a_cons : nat
}.

(** tools.py:318-330: leading apostrophe; returns the part and next_hyphen. *)
Definition part_head (i : nat) (part next_hyphen : str) : res (str * str) :=
  match part with
  | [] => Err NotBrivlaError                                   (* tools.py:315-316 *)
  | c :: rest =>
      if N.eqb c c_h then
        match rest with
        | [] => Err NotBrivlaError
        | r0 :: _ =>
            if negb (is_vowel r0) then Err NotBrivlaError
            else
              (* DecompositionError of split_vowel_cluster is not caught here *)
              syl <- split_vowel_cluster (take_while is_vowel rest) ;;
              s0 <- idxl syl 0 ;;
              if mems s0 FOLLOW_VOWEL_CLUSTERS then Err NotBrivlaError
              else Ok (rest, next_hyphen ++ [c_h])
        end
      else if (0 <? i) && is_vowel c && negb (is_glide part) then Err NotBrivlaError
      else Ok (part, next_hyphen)
  end.

(** tools.py:386-392: consonant bookkeeping over the pieces found. *)
Fixpoint count_found (found : list str) (num : nat) (has_cluster : bool) : nat * bool :=
  match found with
  | [] => (num, has_cluster)
  | p :: rest =>
      let t := rafsi_tarmi p in
      if tarmi_in t [CVV; CVhV] then count_found rest (num + 1) has_cluster
      else if negb (tarmi_eqb t OTHER_RAFSI) then count_found rest (num + 2) true
      else count_found rest num has_cluster
  end.

(** tools.py:402-412: (to_part, smabru_part) *)
Definition to_smabru (part : str) : res (str * str) :=
  if tarmi_eqb (rafsi_tarmi (firstn 4 part)) CVhV then Ok (firstn 4 part, skipn 4 part)
  else if tarmi_eqb (rafsi_tarmi (firstn 3 part)) CVV then Ok (firstn 3 part, skipn 3 part)
  else
    c0 <- idx part 0 ;;
    if is_consonant c0 then
      c1 <- idx part 1 ;;
      if is_vowel c1 then Ok (firstn 2 part, skipn 2 part) else Ok ([], [])
    else Ok ([], []).

(** tools.py:401-427: the tosmabru test made on the first part. *)
Definition tosmabru_check (jvk : jvk_t) (st : settings) (y_part0 part : str) (did_add_a : bool)
  : res unit :=
  let* '(to_part, smabru) := to_smabru part in
  match smabru with
  | [] => Ok tt
  | _ =>
      let smabru := if did_add_a then dropl 1 smabru else strip_hyphens smabru in
      bad <- (if is_valid_rafsi smabru false then
                if tarmi_eqb (rafsi_tarmi smabru) CCV then
                  c <- idx y_part0 (length to_part + 3) ;;
                  Ok (negb (N.eqb c c_h))
                else Ok true
              else Ok false) ;;
      if bad : bool then Err NotBrivlaError
      else
        match jvk (y_hyphens st) CLUSTER false (allow_mz st) smabru with
        | Ok _ => Err NotBrivlaError
        | Err DecompositionError | Err InvalidClusterError => Ok tt
        | Err e => Err e
        end
  end.

(** What tools.py:346-364 computes about a part. *)
Record pinfo := mkP {
  p_part : str;          (* part *)
  p_copy : str;          (* part_copy *)
  p_hyphen : str;        (* next_hyphen *)
  p_can : bool;          (* can_be_rafsi *)
  p_req : bool;          (* require_cluster *)
  p_adda : bool          (* did_add_a *)
}.

(** tools.py:346-364.  [y_parts] is the whole split word. *)
Definition part_tail (st : settings) (is_cmevlatai : bool) (y_parts : list str) (i : nat)
    (part : str) (has_cluster : bool) : res pinfo :=
  l <- idx_last part ;;
  if N.eqb l c_h then
    req <- (if yset_eqb (y_hyphens st) STANDARD && negb has_cluster && (i <? length y_parts - 1)
            then nxt <- idxl y_parts (i + 1) ;;
                 c <- idx nxt 0 ;;                   (* IndexError if that part is empty *)
                 Ok (negb (N.eqb c c_h))
            else Ok false) ;;
    let part := dropl 1 part in
    l' <- idx_last part ;;
    if negb (is_vowel l') then Err NotBrivlaError
    else Ok (mkP part part [c_h] true req false)
  else if (i <? length y_parts - 1) || is_cmevlatai then
    Ok (mkP (part ++ [c_a]) part [] (negb (is_vowel l)) true true)
  else Ok (mkP part part [] true false false).

(** tools.py:366-392, when can_be_rafsi: returns did_kaha, the pieces to append,
    num_consonants and has_cluster. *)
Definition part_kaha (ana : ana_t) (st : settings) (part_a : str) (p : pinfo)
    (num : nat) (has_cluster : bool) : res (bool * list str * nat * bool) :=
  _ <- (if negb (ends_with part_a [c_h; c_a]) && negb (is_gismu (lastn 5 part_a) (allow_mz st)) then
          match ana (mkSettings (y_hyphens st) false CLUSTER false (allow_mz st)) part_a with
          | Ok (t, _) => if wtype_eqb t LUJVO then Err NotBrivlaError else Ok tt
          | Err NotBrivlaError => Ok tt
          | Err e => Err e
          end
        else Ok tt) ;;
  match jvokaha_2 (y_hyphens st) (allow_mz st) (p_copy p) with
  | Ok [] => Ok (false, [], num, has_cluster)     (* found_parts[0] fails inside the try *)
  | Ok ((f0 :: _) as found) =>
      if (length found <? 2) && negb (is_valid_rafsi f0 (allow_mz st)) then Err NotBrivlaError
      else
        let '(num', cl') := count_found found num has_cluster in
        Ok (true, found, num', cl')
  | Err DecompositionError | Err InvalidClusterError | Err IndexError =>
      let '(num', cl') := count_found [p_part p] num has_cluster in
      Ok (false, [], num', cl')
  | Err e => Err e
  end.

(** tools.py:310-454: one iteration of the loop over y_parts. *)
Definition analyse_part (ana : ana_t) (jvk : jvk_t) (st : settings) (is_cmevlatai : bool)
    (y_parts : list str) (i : nat) (part0 : str) (a : astate) : res astate :=
  let nh := if i =? 0 then a_hyphen a else a_hyphen a ++ [c_y] in
  let* '(part, nh) := part_head i part0 nh in
  let result_parts := match nh with [] => a_parts a | _ => a_parts a ++ [nh] end in
  if tarmi_eqb (rafsi_tarmi part) CVC then
    Ok (mkA (result_parts ++ [part]) [] (a_cluster a) (a_mahor a) true (a_cons a + 2))
  else
    p0 <- idx part 0 ;;
    let mahor := if (0 <? i) && (is_consonant p0 || is_glide part) then false else a_mahor a in
    let has_cluster :=
      if a_break a && (is_consonant p0 || (glides st && is_glide part)) then true else a_cluster a in
    let part_a := part ++ [c_a] in
    p <- part_tail st is_cmevlatai y_parts i part has_cluster ;;
    let* '(did_kaha, found, num, has_cluster) :=
      (if p_can p then part_kaha ana st part_a p (a_cons a) has_cluster
       else Ok (false, [], a_cons a, has_cluster)) in
    if did_kaha then
      (* tools.py:395-399 *)
      _ <- (if tarmi_in (rafsi_tarmi (p_part p)) [CVV; CVhV]
               && p_req p && negb has_cluster && negb is_cmevlatai then
              y1 <- idxl y_parts 1 ;;
              if yset_eqb (y_hyphens st) STANDARD
                 || negb ((i =? length y_parts - 2) && tarmi_in (rafsi_tarmi y1) [CVV; CCV])
              then Err NotBrivlaError else Ok tt
            else Ok tt) ;;
      _ <- (if i =? 0 then tosmabru_check jvk st part0 (p_part p) (p_adda p) else Ok tt) ;;
      Ok (mkA (result_parts ++ found) (p_hyphen p) has_cluster mahor false num)
    else
      (* tools.py:429-452 *)
      t <- match check_zihevla_or_rafsi ana jvk (p_req p || negb (exp_rafsi_shapes st))
                   (y_hyphens st) (exp_rafsi_shapes st) (allow_mz st) (p_part p) with
           | Err NotZihevlaError => Err NotBrivlaError
           | r => r
           end ;;
      _ <- (if wtype_eqb t ZIhEVLA && p_adda p then
              b <- succeeds (jvokaha_2 (y_hyphens st) (allow_mz st) (p_part p)) ;;
              if b then Err NotBrivlaError else Ok tt
            else Ok tt) ;;
      q0 <- idx (p_part p) 0 ;;
      let num := if is_consonant q0 || (glides st && is_glide (p_part p)) then num + 1 else num in
      Ok (mkA (result_parts ++ [p_copy p]) (p_hyphen p)
              (if wtype_eqb t ZIhEVLA then true else has_cluster) mahor false num).

(** tools.py:310: for i, part in enumerate(y_parts) *)
Fixpoint analyse_loop (ana : ana_t) (jvk : jvk_t) (st : settings) (is_cmevlatai : bool)
    (y_parts : list str) (i : nat) (parts : list str) (a : astate) : res astate :=
  match parts with
  | [] => Ok a
  | p :: rest =>
      a' <- analyse_part ana jvk st is_cmevlatai y_parts i p a ;;
      analyse_loop ana jvk st is_cmevlatai y_parts (S i) rest a'
  end.

(** tools.py:304-470: a word with several y-parts that is not a CLL lujvo; [v0] is
    valsi[0]. *)
Definition analyse_compound (ana : ana_t) (jvk : jvk_t) (st : settings) (is_cmevlatai : bool)
    (v0 : char) (valsi : str) (y_parts : list str) : res (wtype * list str) :=
  a <- analyse_loop ana jvk st is_cmevlatai y_parts 0 y_parts (mkA [] [] false true false 0) ;;
  (* tools.py:456-464 *)
  if negb (a_cluster a) && negb is_cmevlatai
     && match consonants st with
        | CLUSTER => true
        | TWO_CONSONANTS => (a_cons a <? 2) || a_mahor a
        | ONE_CONSONANT => (a_cons a <? 1) || a_mahor a
        end
  then Err NotBrivlaError
  else
    (* tools.py:466-468 *)
    vc <- (if is_vowel v0 then
             v1 <- idx valsi 1 ;; Ok (is_consonant v1 || N.eqb v1 c_y)
           else Ok false) ;;
    b <- (if vc : bool then Ok false
          else is_slinkuhi jvk (y_hyphens st) (allow_mz st) valsi) ;;
    if b : bool then Err NotBrivlaError
    else Ok (if is_cmevlatai then CMEVLA else EXTENDED_LUJVO, a_parts a).

(** tools.py:287-470: what follows when jvokaha fails. *)
Definition analyse_other (ana : ana_t) (jvk : jvk_t) (st : settings) (is_cmevlatai : bool)
    (valsi : str) : res (wtype * list str) :=
  v0 <- idx valsi 0 ;;
  if negb (is_vowel v0 || is_consonant v0) then Err NotBrivlaError
  else
    let y_parts := split_on c_y valsi in
    if length y_parts =? 1 then
      if is_cmevlatai then Err NotBrivlaError
      else
        match check_zihevla_or_rafsi ana jvk true (y_hyphens st) (exp_rafsi_shapes st)
                (allow_mz st) valsi with
        | Ok _ => Ok (ZIhEVLA, [valsi])
        | Err NotZihevlaError => Err NotBrivlaError
        | Err e => Err e
        end
    else analyse_compound ana jvk st is_cmevlatai v0 valsi y_parts.

(** tools.py:239-470 *)
Definition analyse_body (ana : ana_t) (jvk : jvk_t) (st : settings) (valsi : str)
  : res (wtype * list str) :=
  valsi <- normalise valsi ;;
  match last_opt valsi with
  | None => Err NotBrivlaError
  | Some l =>
      let is_cmevlatai := is_consonant l in
      if negb is_cmevlatai && negb (is_vowel l) then Err NotBrivlaError
      else if is_cmevlatai && is_gismu (valsi ++ [c_a]) (allow_mz st) then Err NotBrivlaError
      else if negb is_cmevlatai && is_gismu valsi (allow_mz st) then Ok (GISMU, [valsi])
      else
        match jvk (y_hyphens st) (consonants st) (glides st) (allow_mz st) valsi with
        | Ok parts => Ok (if is_cmevlatai then CMEVLA else LUJVO, parts)
        | Err DecompositionError | Err InvalidClusterError | Err IndexError =>
            analyse_other ana jvk st is_cmevlatai valsi
        | Err e => Err e
        end
  end.

(** tools.py:473-491 *)
Fixpoint rafsi_indices_loop (position : nat) (rafsi_list : list str) : list (nat * nat) :=
  match rafsi_list with
  | [] => []
  | piece :: rest =>
      (if mems piece HYPHENS then [] else [(position, position + length piece)])
      ++ rafsi_indices_loop (position + length piece) rest
  end.
Definition get_rafsi_indices (rafsi_list : list str) : list (nat * nat) :=
  rafsi_indices_loop 0 rafsi_list.

(** ** jvozba.py *)

Definition vowel_count (s : str) : nat :=
  count 97%N s + count 101%N s + count 105%N s + count 111%N s + count 117%N s.

(** jvozba.py:19-40 *)
Definition score (rafsi : str) : Z :=
  let tarmi_score :=
    if tarmi_eqb (tarmi_ignoring_hyphen rafsi) OTHER_RAFSI then 0%Z
    else tarmi_val (tarmi_ignoring_hyphen rafsi) in
  (1000 * Z.of_nat (length rafsi) + 100 * Z.of_nat (count c_y rafsi)
   - 10 * tarmi_score - Z.of_nat (vowel_count rafsi))%Z.

(** jvozba.py:43-45 *)
Definition tiebreak (lujvo : str) : Z :=
  if tarmi_eqb (rafsi_tarmi (firstn 3 lujvo)) CVV
     && tarmi_in (rafsi_tarmi (skipn 3 lujvo)) [CCV; CCVC; CVC; CVCC]
  then 1%Z else 0%Z.

(** r_type of jvozba.py:72: one of three strings or a tarmi code *)
Inductive rtype := SHORT_BRIVLA | LONG_BRIVLA | EXPERIMENTAL_RAFSI | Tar (t : tarmi).

(** jvozba.py:70-141 *)
Definition get_rafsi_for_rafsi (rafsi : str) (r_type : rtype) (is_first is_last : bool)
    (cs : cset) (gl : bool) : res (list (str * nat)) :=
  (* jvozba.py:91: rafsi[0] is evaluated only when not is_first *)
  rafsi <- (if is_first then Ok rafsi
            else c <- idx rafsi 0 ;;
                 Ok (if is_vowel c && negb (is_glide rafsi) then c_h :: rafsi else rafsi)) ;;
  match r_type with
  | SHORT_BRIVLA | Tar CCVC | Tar CVCC =>
      if negb is_last then Ok [(rafsi ++ [c_y], 2)]
      else
        l <- idx_last rafsi ;;
        if negb (is_vowel l) then Ok [(rafsi, 2)] else Ok []
  | LONG_BRIVLA | Tar CCVCV | Tar CVCCV =>
      if is_last then Ok [(rafsi, 2)] else Ok [(rafsi ++ [c_h; c_y], 2)]
  | EXPERIMENTAL_RAFSI =>
      num <- (if cset_eqb cs CLUSTER then Ok 0
              else c <- idx rafsi 0 ;;
                   Ok (if is_consonant c || (gl && is_glide rafsi) then 1 else 0)) ;;
      if is_last then Ok [(rafsi, num)]
      else if negb is_first then Ok [(rafsi ++ [c_h; c_y], num)]
      else Ok [(rafsi ++ [c_h], num)]
  | Tar CVV | Tar CVhV =>
      let num := if cset_eqb cs CLUSTER then 0 else 1 in
      Ok ((if is_first then [(rafsi ++ [c_h], num)]
           else if negb is_last then [(rafsi ++ [c_h; c_y], num)]
           else []) ++ [(rafsi, num)])
  | Tar CCV => Ok [(rafsi, 2); (rafsi ++ [c_h; c_y], 2)]
  | Tar CVC => Ok ((rafsi, 2) :: (if negb is_last then [(rafsi ++ [c_y], 2)] else []))
  | Tar HYPHEN | Tar OTHER_RAFSI => Err AssertionError
  end.

(** RAFSI_LIST[valsi] (or its absence) *)
Definition dict_get (valsi : str) : option (list str) :=
  match find (fun kv => str_eqb (fst kv) valsi) RAFSI_LIST with
  | Some kv => Some (snd kv)
  | None => None
  end.

Fixpoint concat_res {A} (l : list (res (list A))) : res (list A) :=
  match l with
  | [] => Ok []
  | r :: rest => x <- r ;; y <- concat_res rest ;; Ok (x ++ y)
  end.

(** jvozba.py:254-260 *)
Fixpoint short_rafsi_forms (short : list str) (exp is_first is_last : bool) (cs : cset) (gl : bool)
  : res (list (str * nat)) :=
  match short with
  | [] => Ok []
  | r :: rest =>
      let t := rafsi_tarmi r in
      x <- (if tarmi_eqb t OTHER_RAFSI && negb exp then Ok []
            else get_rafsi_for_rafsi r (Tar t) is_first is_last cs gl) ;;
      y <- short_rafsi_forms rest exp is_first is_last cs gl ;;
      Ok (x ++ y)
  end.

(** analyse_brivla(valsi, y_hyphens, exp_rafsi_shapes, allow_mz), as called from
    jvozba.py:180,208,264 *)
Definition ana_settings (st : settings) : settings :=
  mkSettings (y_hyphens st) (exp_rafsi_shapes st) CLUSTER false (allow_mz st).

(** jvozba.py:166-278: the body of the loop, for one tanru component. *)
Definition rafsi_list_for (ana : ana_t) (jvk : jvk_t) (st : settings) (is_first is_last : bool)
    (valsi : str) : res (list (str * nat)) :=
  let cs := consonants st in
  let gl := glides st in
  l <- idx_last valsi ;;
  if N.eqb l c_dash then
    v0 <- idx valsi 0 ;;
    let is_short_brivla := negb (N.eqb v0 c_dash) in
    let valsi := strip_char (N.eqb c_dash) valsi in
    if negb (is_only_lojban_characters valsi) then Err NonLojbanCharacterError
    else
      l <- idx_last valsi ;;
      if N.eqb l c_h then Err NonLojbanCharacterError
      else if is_short_brivla then
        (* jvozba.py:178-201 *)
        b_type <- match ana (ana_settings st) (valsi ++ [c_a]) with
                  | Ok (t, _) => Ok t
                  | Err NotBrivlaError => Err NoLujvoFoundError
                  | Err e => Err e
                  end ;;
        if negb (wtype_eqb b_type ZIhEVLA || wtype_eqb b_type GISMU) then Err NoLujvoFoundError
        else
          _ <- (if (6 <=? length valsi) && is_consonant l then
                  b <- succeeds (jvokaha_2 (y_hyphens st) (allow_mz st) valsi) ;;
                  if b then Err NoLujvoFoundError else Ok tt
                else Ok tt) ;;
          get_rafsi_for_rafsi valsi SHORT_BRIVLA is_first is_last cs gl
      else
        let raftai := rafsi_tarmi valsi in
        if tarmi_eqb raftai OTHER_RAFSI then
          (* jvozba.py:205-236 *)
          zr <- match ana (ana_settings st) valsi with
                | Ok (t, _) => Ok (if wtype_eqb t ZIhEVLA then Some ZIhEVLA else None)
                | Err NotBrivlaError =>
                    if exp_rafsi_shapes st then
                      match check_zihevla_or_rafsi ana jvk false (y_hyphens st)
                              (exp_rafsi_shapes st) (allow_mz st) valsi with
                      | Ok t => Ok (if wtype_eqb t RAFSI then Some RAFSI else None)
                      | Err NotZihevlaError => Err NoLujvoFoundError
                      | Err e => Err e
                      end
                    else Ok None
                | Err e => Err e
                end ;;
          match zr with
          | None => Err NotZihevlaError
          | Some t =>
              get_rafsi_for_rafsi valsi
                (if wtype_eqb t ZIhEVLA then LONG_BRIVLA else EXPERIMENTAL_RAFSI)
                is_first is_last cs gl
          end
        else if negb (is_valid_rafsi valsi (allow_mz st)) then Err InvalidClusterError
        else get_rafsi_for_rafsi valsi (Tar raftai) is_first is_last cs gl
  else if negb (is_only_lojban_characters valsi) then Err NonLojbanCharacterError
  else
    (* jvozba.py:248-276 *)
    short <- match dict_get valsi with
             | Some rs => short_rafsi_forms rs (exp_rafsi_shapes st) is_first is_last cs gl
             | None => Ok []
             end ;;
    b_type <- match ana (ana_settings st) valsi with
              | Ok (t, _) => Ok (Some t)
              | Err NotBrivlaError => Ok None
              | Err e => Err e
              end ;;
    s <- match b_type with
         | Some GISMU => get_rafsi_for_rafsi (dropl 1 valsi) SHORT_BRIVLA is_first is_last cs gl
         | _ => Ok []
         end ;;
    g <- match b_type with
         | Some GISMU | Some ZIhEVLA => get_rafsi_for_rafsi valsi LONG_BRIVLA is_first is_last cs gl
         | _ => Ok []
         end ;;
    Ok (short ++ s ++ g).

(** jvozba.py:144-279; [i] is the index of the head of the list, [n] the length
    of the whole list. *)
Fixpoint rafsi_list_list_loop (ana : ana_t) (jvk : jvk_t) (st : settings) (n i : nat)
    (valsi_list : list str) : res (list (list (str * nat))) :=
  match valsi_list with
  | [] => Ok []
  | valsi :: rest =>
      x <- rafsi_list_for ana jvk st (i =? 0) (i =? n - 1) valsi ;;
      y <- rafsi_list_list_loop ana jvk st n (S i) rest ;;
      Ok (x :: y)
  end.
Definition get_rafsi_list_list ana jvk st valsi_list :=
  rafsi_list_list_loop ana jvk st (length valsi_list) 0 valsi_list.

(** jvozba.py:14-16 *)
Definition TOSYNONE := 0.
Definition TOSMABRU := 1.
Definition TOSYhUhU := 2.

(** The 5-tuple returned by combine, jvozba.py:395-401. *)
Record cand := mkCand {
  c_tos : nat; c_cons : nat; c_score : Z; c_word : str; c_idx : list (nat * nat)
}.

(** jvozba.py:377-383: the first character, from the end resp. the start, that is
    not a hyphen letter. *)
Definition last_sound (lujvo : str) : res char := idx (drop_while is_hy (rev lujvo)) 0.
Definition first_sound (rafsi : str) : res str :=
  let r := drop_while (N.eqb c_h) rafsi in
  _ <- idx r 0 ;; Ok r.

(** jvozba.py:332-350: the glue hyphen, or None when combine returns early. *)
Definition glue (lujvo rafsi : str) (raftai_1 : tarmi) (generate_cmevla : bool) (tanru_len : nat)
    (yh : yset) (ll r0 : char) : option str :=
  if N.eqb ll c_h then
    if N.eqb r0 c_h || negb (yset_eqb yh STANDARD) then Some [c_y] else None
  else if (length lujvo =? 5) && tarmi_eqb (rafsi_tarmi (firstn 3 lujvo)) CCV
          && str_eqb (skipn 3 lujvo) [c_h; c_y]
  then None
  else if (length lujvo <=? 5) && negb generate_cmevla then
    let raftai_0 := tarmi_ignoring_hyphen lujvo in
    let hyphen :=
      if tarmi_in raftai_0 [CVhV; CVV] then
        if yset_eqb yh FORCE_Y then [c_h; c_y]
        else if N.eqb r0 c_r then [c_n] else [c_r]
      else [] in
    if (tanru_len =? 2) && tarmi_eqb raftai_1 CCV then Some [] else Some hyphen
  else Some [].

(** jvozba.py:352-366: the new tosmabru_type, or None when combine returns early. *)
Definition next_tosmabru (tos : nat) (rafsi : str) (raftai_1 : tarmi) (ll r0 : char) : option nat :=
  if tos =? TOSMABRU then
    if negb (mems [ll; r0] INITIAL) then Some TOSYNONE
    else if tarmi_eqb raftai_1 CVCCV then
      if mems (slice 2 4 rafsi) INITIAL then None else Some TOSYNONE
    else if tarmi_eqb raftai_1 CVC then
      match last_opt rafsi with
      | Some c => if N.eqb c c_y then None else Some TOSMABRU
      | None => Some TOSMABRU
      end
    else Some TOSYNONE
  else if tos =? TOSYhUhU then
    if negb (N.eqb r0 c_h) || contains_consonant rafsi then Some TOSYNONE else Some TOSYhUhU
  else Some tos.

(** jvozba.py:372-392: the new consonant count. *)
Definition next_consonants (lujvo rafsi hyphen : str) (lujvo_cons rafsi_cons : nat) (cs : cset) (gl : bool)
  : res nat :=
  new <- (if str_eqb hyphen [c_n] || str_eqb hyphen [c_r] then Ok 2
          else if cset_eqb cs CLUSTER then
            if negb (rafsi_cons =? 2) then
              l <- last_sound lujvo ;;
              r <- first_sound rafsi ;;
              Ok (if is_consonant l
                     && (match r with c :: _ => is_consonant c | [] => false end || (gl && is_glide r))
                  then 2 else 0)
            else Ok rafsi_cons
          else Ok rafsi_cons) ;;
  let total := Nat.min 2 (lujvo_cons + new) in
  Ok (if cset_eqb cs ONE_CONSONANT && (0 <? total) then 2 else total).

(** regular expression ^[aeiou']+$ of jvozba.py:330 *)
Definition re_vowels (s : str) : bool :=
  match s with [] => false | _ => forallb (fun c => is_vowel c || N.eqb c c_h) s end.

(** jvozba.py:282-401 *)
Definition combine (lujvo rafsi : str) (lujvo_cons rafsi_cons : nat) (lujvo_score : Z)
    (index_list : list (nat * nat)) (tos : nat) (generate_cmevla : bool) (tanru_len : nat)
    (st : settings) : res (option cand) :=
  let yh := y_hyphens st in
  let cs := consonants st in
  let gl := glides st in
  ll <- idx_last lujvo ;;
  r0 <- idx rafsi 0 ;;
  if is_consonant ll && is_consonant r0 && negb (mems [ll; r0] (valid_pairs (allow_mz st))) then Ok None
  else if negb (is_hy ll) && N.eqb r0 c_h then Ok None
  else if mems (ll :: firstn 2 rafsi) BANNED_TRIPLES then Ok None
  else
    let raftai_1 := tarmi_ignoring_hyphen rafsi in
    if negb (is_hy ll) && tarmi_eqb raftai_1 OTHER_RAFSI then Ok None
    else
      last_ix <- idx_last index_list ;;
      (* jvozba.py:329: both bounds of the slice are index_list[-1][0] *)
      let prulamrafsi := slice (fst last_ix) (fst last_ix) lujvo in
      if tarmi_in (rafsi_tarmi prulamrafsi) [CVV; CVC] && re_vowels prulamrafsi
         && (N.eqb r0 c_h || (is_glide rafsi && negb gl && cset_eqb cs CLUSTER))
      then Ok None
      else
        match glue lujvo rafsi raftai_1 generate_cmevla tanru_len yh ll r0 with
        | None => Ok None
        | Some hyphen =>
            match next_tosmabru tos rafsi raftai_1 ll r0 with
            | None => Ok None
            | Some tos' =>
                let rafsi_start := length lujvo + length hyphen + (if N.eqb r0 c_h then 1 else 0) in
                let rafsi_end := rafsi_start + length (strip_hyphens rafsi) in
                total <- next_consonants lujvo rafsi hyphen lujvo_cons rafsi_cons cs gl ;;
                let res_ := lujvo ++ hyphen ++ rafsi in
                Ok (Some (mkCand tos' total
                            (lujvo_score + score hyphen + score rafsi - tiebreak res_)%Z
                            res_ (index_list ++ [(rafsi_start, rafsi_end)])))
            end
        end.

(** current_best of jvozba.py:445: a 3x3 array of dicts keyed by the last letter.
    Simplification: the nine dicts share one association list keyed by
    (tosmabru type, consonants, letter), in insertion order, so that the entries
    of one dict appear in that dict's own insertion order. *)
Definition key := (nat * nat * char)%type.
Definition entry := (str * Z * list (nat * nat))%type.
Definition table := list (key * entry).
Definition key_eqb (a b : key) : bool :=
  match a, b with (t, k, c), (t', k', c') => (t =? t') && (k =? k') && N.eqb c c' end.

(** dict assignment: an existing key keeps its place *)
Fixpoint tbl_set (k : key) (e : entry) (t : table) : table :=
  match t with
  | [] => [(k, e)]
  | (k', e') :: r => if key_eqb k k' then (k', e) :: r else (k', e') :: tbl_set k e r
  end.
Fixpoint tbl_get (k : key) (t : table) : option entry :=
  match t with
  | [] => None
  | (k', e') :: r => if key_eqb k k' then Some e' else tbl_get k r
  end.

(** jvozba.py:404-419 *)
Definition update_current_best (c : option cand) (t : table) : res table :=
  match c with
  | None => Ok t
  | Some c =>
      l <- idx_last (c_word c) ;;
      let k := (c_tos c, c_cons c, l) in
      match tbl_get k t with
      | Some (_, s, _) =>
          if (s >? c_score c)%Z then Ok (tbl_set k (c_word c, c_score c, c_idx c) t) else Ok t
      | None => Ok (tbl_set k (c_word c, c_score c, c_idx c) t)
      end
  end.

Fixpoint fold_res {A B} (f : A -> B -> res A) (l : list B) (a : A) : res A :=
  match l with
  | [] => Ok a
  | b :: r => a' <- f a b ;; fold_res f r a'
  end.

(** jvozba.py:448-451 *)
Definition first_tos (rafsi0 : str) (generate_cmevla : bool) : res nat :=
  if negb (tarmi_eqb (tarmi_ignoring_hyphen rafsi0) CVC) || generate_cmevla then Ok TOSYNONE
  else l <- idx_last rafsi0 ;; Ok (if N.eqb l c_y then TOSYhUhU else TOSMABRU).

(** jvozba.py:446-467 *)
Definition first_step (gen : bool) (st : settings) (n : nat) (l0 l1 : list (str * nat)) : res table :=
  fold_res (fun t '(r0, n0) =>
    fold_res (fun t '(r1, n1) =>
      tos <- first_tos r0 gen ;;
      c <- combine r0 r1 n0 n1 (score r0) [(0, length (strip_hyphens r0))] tos gen n st ;;
      update_current_best c t) l1 t) l0 [].

(** jvozba.py:472-474: the entries of previous_best in iteration order. *)
Definition tbl_bucket (t : table) (tos k : nat) : list (key * entry) :=
  filter (fun ke => match fst ke with (a, b, _) => (a =? tos) && (b =? k) end) t.
Definition tbl_iter (t : table) : list (key * entry) :=
  flat_map (fun tos => flat_map (fun k => tbl_bucket t tos k) [0; 1; 2]) [0; 1; 2].

(** jvozba.py:470-490 *)
Definition next_step (gen : bool) (st : settings) (prev : table) (rafsi_list : list (str * nat)) : res table :=
  fold_res (fun t '(rafsi, rc) =>
    fold_res (fun t '((tos, k, _), (w, sc, ix)) =>
      c <- combine w rafsi k rc sc ix tos gen 0 st ;;
      update_current_best c t) (tbl_iter prev) t) rafsi_list [].

(** jvozba.py:492 *)
Definition BEST_INIT : Z := (10 ^ 100)%Z.

(** jvozba.py:491-498 *)
Fixpoint pick_best (gen : bool) (entries : list (key * entry)) (best : option entry) (best_score : Z)
  : option entry :=
  match entries with
  | [] => best
  | ((_, _, lerfu), (w, sc, ix)) :: rest =>
      if ((is_vowel lerfu && negb gen) || (is_consonant lerfu && gen)) && (sc <? best_score)%Z
      then pick_best gen rest (Some (w, sc, ix)) sc
      else pick_best gen rest best best_score
  end.

(** jvozba.py:444-490: the table after the last component. *)
Definition lujvo_table (gen : bool) (st : settings) (rll : list (list (str * nat))) : res table :=
  l0 <- idxl rll 0 ;;
  (* rafsi_list_list[1] is evaluated inside the loop over rafsi_list_list[0] *)
  t <- match l0 with
       | [] => Ok []
       | _ => l1 <- idxl rll 1 ;; first_step gen st (length rll) l0 l1
       end ;;
  fold_res (next_step gen st) (skipn 2 rll) t.

(** jvozba.py:422-505 *)
Definition get_lujvo_from_list (lk : binding) (ana : ana_t) (jvk : jvk_t) (valsi_list : list str)
    (gen : bool) (st : settings) : res entry :=
  rll <- get_rafsi_list_list ana jvk st valsi_list ;;
  t <- lujvo_table gen st rll ;;
  match pick_best gen (tbl_bucket t 0 2) None BEST_INIT with
  | None => Err NoLujvoFoundError
  | Some (w, sc, ix) =>
      if gen then Ok (w, sc, ix)
      else match lk with
           | Unbound => Err NameError
           | Bound =>
               b <- is_slinkuhi jvk (y_hyphens st) (allow_mz st) w ;;
               if b : bool then Err NoLujvoFoundError else Ok (w, sc, ix)
           end
  end.

(** ** katna.py, part 2 *)

(** f'-{x}-' *)
Definition dashed (x : str) : str := c_dash :: x ++ [c_dash].

(** katna.py:101-146; [glfl] is get_lujvo_from_list. *)
Definition jvokaha_body (glfl : list str -> bool -> settings -> res entry)
    (yh : yset) (cs : cset) (gl mz : bool) (lujvo : str) : res (list str) :=
  arr <- jvokaha_2 yh mz lujvo ;;
  let rafsi_tanru := map dashed (filter (fun x => 2 <? length x) arr) in
  if length rafsi_tanru =? 1 then Err DecompositionError
  else
    piece <- idx_last arr ;;
    c <- idx_last piece ;;
    correct <- match glfl rafsi_tanru (is_consonant c) (mkSettings yh false cs gl mz) with
               | Ok (w, _, _) => Ok w
               | Err NoLujvoFoundError => Err DecompositionError
               | Err e => Err e
               end ;;
    good <- (if yset_eqb yh FORCE_Y then Ok (str_eqb correct lujvo)
             else corr <- jvokaha_2 yh mz correct ;; compare_lujvo_pieces corr arr) ;;
    if good : bool then Ok arr else Err DecompositionError.

(** The knot: analyse_brivla (tools.py:239) and jvokaha (katna.py:101). *)
Fixpoint analyse (lk : binding) (fuel : nat) (st : settings) (w : str) : res (wtype * list str) :=
  match fuel with
  | O => Err OutOfFuel
  | S f => analyse_body (analyse lk f) (jvokaha lk f) st w
  end
with jvokaha (lk : binding) (fuel : nat) (yh : yset) (cs : cset) (gl mz : bool) (w : str) : res (list str) :=
  match fuel with
  | O => Err OutOfFuel
  | S f => jvokaha_body (get_lujvo_from_list lk (analyse lk f) (jvokaha lk f)) yh cs gl mz w
  end.
