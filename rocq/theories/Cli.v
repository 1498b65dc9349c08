(** The two interactive loops: [python jvozba.py] and [python katna.py].

    A session is modelled as a function of the list of lines the user types.  What
    is kept of the output: the prompt of every turn, the values printed, and of a
    printed exception its class.  [input] raises EOFError when the lines are used
    up.  A line is what [input] returns: it has no line end. *)
From Verif Require Import Str Data Tarmi Rafsi Core Api.

(** what the loops keep between turns: jvozba.py:573-578, katna.py:303-307 (which
    has no cmevla_setting: the field is then never read) *)
Record session := mkSession { cmevla : bool; opts : settings }.
(** jvozba.py:573-578, katna.py:303-307 *)
Definition session_start : session := mkSession false (mkSettings STANDARD false CLUSTER false false).

(** one word after the slash: jvozba.py:586-616; katna.py:314-340 is the same but
    for the first two cases *)
Definition change_word (has_cmevla : bool) (s : session) (w : str) : session :=
  let 'mkSession cm (mkSettings y r c g m) := s in
  if has_cmevla && str_eqb w (L "cmevla") then mkSession true (mkSettings y r c g m)
  else if has_cmevla && str_eqb w (L "brivla") then mkSession false (mkSettings y r c g m)
  else if str_eqb w (L "standard") then mkSession cm (mkSettings STANDARD r c g m)
  else if str_eqb w (L "allow") then mkSession cm (mkSettings ALLOW_Y r c g m)
  else if str_eqb w (L "force") then mkSession cm (mkSettings FORCE_Y r c g m)
  else if str_eqb w (L "more") then mkSession cm (mkSettings y true c g m)
  else if str_eqb w (L "less") then mkSession cm (mkSettings y false c g m)
  else if str_eqb w (L "cluster") then mkSession cm (mkSettings y r CLUSTER g m)
  else if str_eqb w (L "2c") then mkSession cm (mkSettings y r TWO_CONSONANTS g m)
  else if str_eqb w (L "1c") then mkSession cm (mkSettings y r ONE_CONSONANT g m)
  else if str_eqb w (L "glide") then mkSession cm (mkSettings y r c true m)
  else if str_eqb w (L "glidnt") then mkSession cm (mkSettings y r c false m)
  else if str_eqb w (L "mz") then mkSession cm (mkSettings y r c g true)
  else if str_eqb w (L "mznt") then mkSession cm (mkSettings y r c g false)
  else s.
(** jvozba.py:584-617, katna.py:312-341: [r] is string[1:] *)
Definition change_line (has_cmevla : bool) (s : session) (r : str) : session :=
  fold_left (change_word has_cmevla) (split_ws (lower r)) s.

(** str(x)[0] and the first letters of the constants of tarmi.py:33-39 *)
Definition bool_letter (b : bool) : str := if b then L "T" else L "F".
Definition y_letter (y : yset) : str := match y with STANDARD => L "S" | ALLOW_Y => L "A" | FORCE_Y => L "F" end.
Definition c_letter (c : cset) : str := match c with CLUSTER => L "C" | TWO_CONSONANTS => L "T" | ONE_CONSONANT => L "O" end.
(** the five letters both prompts share *)
Definition opts_letters (st : settings) : str :=
  y_letter (y_hyphens st) ++ bool_letter (exp_rafsi_shapes st) ++ c_letter (consonants st) ++ bool_letter (glides st) ++ bool_letter (allow_mz st).
(** jvozba.py:580-581 *)
Definition jvozba_prompt (s : session) : str := L "(" ++ bool_letter (cmevla s) ++ opts_letters (opts s) ++ L ") Enter a tanru: ".
(** katna.py:309 *)
Definition katna_prompt (s : session) : str := L "(" ++ opts_letters (opts s) ++ L ") Enter a lujvo: ".

(** what is printed *)
Inductive printed :=
| PLujvo (x : entry)                  (* get_lujvo_with_analytics *)
| PAnalysis (x : wtype * list str)    (* analyse_brivla *)
| PVeljvo (x : list str)              (* get_veljvo *)
| PError (e : exn).                   (* a caught exception *)

Fixpoint exn_in (e : exn) (l : list exn) : bool :=
  match l with
  | [] => false
  | x :: r => match e, x with
              | DecompositionError, DecompositionError | InvalidClusterError, InvalidClusterError
              | NoLujvoFoundError, NoLujvoFoundError | NonLojbanCharacterError, NonLojbanCharacterError
              | NotBrivlaError, NotBrivlaError | NotZihevlaError, NotZihevlaError => true
              | _, _ => exn_in e r
              end
  end.

(** one line that is no command: what is printed, and the exception that is not
    caught, if any.
    jvozba.py:618-623 *)
Definition jvozba_answer (lk : binding) (s : session) (line : str) : list printed * option exn :=
  match get_lujvo_with_analytics lk (cmevla s) (opts s) (TStr line) with
  | Ok x => ([PLujvo x], None)
  | Err e => if exn_in e [NoLujvoFoundError; NonLojbanCharacterError; NotZihevlaError] then ([PError e], None) else ([], Some e)
  end.
(** katna.py:342-346 *)
Definition katna_answer (lk : binding) (s : session) (line : str) : list printed * option exn :=
  let caught before e := if exn_in e [DecompositionError; NotBrivlaError] then (before ++ [PError e], None) else (before, Some e) in
  match analyse_brivla lk (opts s) line with
  | Ok a => match get_veljvo lk (opts s) line with
            | Ok v => ([PAnalysis a; PVeljvo v], None)
            | Err e => caught [PAnalysis a] e
            end
  | Err e => caught [] e
  end.

(** how a session ends: an empty line, the end of the input, an exception *)
Inductive ending := EndEmpty | EndOfInput | EndUncaught (e : exn).

(** jvozba.py:579-623, katna.py:308-346: the turns (prompt, output) and the end *)
Fixpoint loop (has_cmevla : bool) (prompt : session -> str) (answer : session -> str -> list printed * option exn)
  (s : session) (lines : list str) : list (str * list printed) * ending :=
  match lines with
  | [] => ([(prompt s, [])], EndOfInput)
  | [] :: _ => ([(prompt s, [])], EndEmpty)
  | (c :: r) :: rest =>
      if N.eqb c 47 (* "/" *) then
        let '(turns, e) := loop has_cmevla prompt answer (change_line has_cmevla s r) rest in
        ((prompt s, []) :: turns, e)
      else
        match answer s (c :: r) with
        | (out, Some e) => ([(prompt s, out)], EndUncaught e)
        | (out, None) =>
            let '(turns, e) := loop has_cmevla prompt answer s rest in
            ((prompt s, out) :: turns, e)
        end
  end.
(** jvozba.py:571-623 *)
Definition jvozba_main (lk : binding) (lines : list str) := loop true jvozba_prompt (jvozba_answer lk) session_start lines.
(** katna.py:301-346 *)
Definition katna_main (lk : binding) (lines : list str) := loop false katna_prompt (katna_answer lk) session_start lines.
