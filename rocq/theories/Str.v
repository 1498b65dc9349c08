(** Python strings and exceptions, as used by latkerlo_jvotci.

    A Python [str] is a finite sequence of Unicode code points: we model it as
    [list N].  Python exceptions are values of [exn]; a function that may raise
    returns [res A].  Exception messages are not modelled (the code never reads
    them back). *)
From Coq Require Export String Ascii NArith ZArith Arith Bool List.
Export ListNotations.
Close Scope string_scope.
Open Scope list_scope.
Open Scope nat_scope.

Definition char := N.
Definition str := list char.

(** String literals: [L "abc"]. *)
Fixpoint L (s : string) : str :=
  match s with
  | EmptyString => []
  | String a r => N_of_ascii a :: L r
  end.
Arguments L s%string_scope.

(** Single-character literals used by the code. *)
Definition c_y : char := 121%N.      (* y *)
Definition c_h : char := 39%N.       (* ' *)
Definition c_a : char := 97%N.       (* a *)
Definition c_n : char := 110%N.
Definition c_r : char := 114%N.
Definition c_m : char := 109%N.
Definition c_i : char := 105%N.
Definition c_u : char := 117%N.
Definition c_dash : char := 45%N.    (* - *)
Definition c_dot : char := 46%N.     (* . *)
Definition c_comma : char := 44%N.   (* , *)

(** The exceptions of exceptions.py:7-34, plus the built-in ones the code can
    raise.  [OutOfFuel] is not a Python exception: it marks exhausted recursion
    fuel in the model and is proved unreachable from the API. *)
Inductive exn :=
| DecompositionError | InvalidClusterError | NoLujvoFoundError
| NonLojbanCharacterError | NotBrivlaError | NotZihevlaError
| IndexError | NameError | AssertionError
| OutOfFuel.

Inductive res (A : Type) := Ok (a : A) | Err (e : exn).
Arguments Ok {A} a.
Arguments Err {A} e.

Definition bind {A B} (m : res A) (k : A -> res B) : res B :=
  match m with Ok a => k a | Err e => Err e end.
Notation "x <- m ;; k" := (bind m (fun x => k))
  (at level 61, m at next level, right associativity).
Notation "'let*' ' p := m 'in' k" := (bind m (fun p => k))
  (at level 61, p pattern, m at next level, right associativity).

(** [c in s] for a one-character string [c]. *)
Definition memc (c : char) (s : str) : bool := existsb (N.eqb c) s.

Fixpoint str_eqb (a b : str) : bool :=
  match a, b with
  | [], [] => true
  | x :: a', y :: b' => N.eqb x y && str_eqb a' b'
  | _, _ => false
  end.

(** [s in l] for a list of strings. *)
Definition mems (s : str) (l : list str) : bool := existsb (str_eqb s) l.

(** s[i], non-negative i *)
Definition idx (s : str) (i : nat) : res char :=
  match nth_error s i with Some c => Ok c | None => Err IndexError end.

(** l[i] on a list of strings, non-negative i *)
Definition idxl {A} (s : list A) (i : nat) : res A :=
  match nth_error s i with Some c => Ok c | None => Err IndexError end.

Fixpoint last_opt {A} (s : list A) : option A :=
  match s with
  | [] => None
  | [c] => Some c
  | _ :: r => last_opt r
  end.

(** s[-1] *)
Definition idx_last {A} (s : list A) : res A :=
  match last_opt s with Some c => Ok c | None => Err IndexError end.

(** s[i:j] with 0 <= i *)
Definition slice (i j : nat) (s : str) : str := firstn (j - i) (skipn i s).
(** s[-k:] with k > 0 *)
Definition lastn (k : nat) (s : str) : str := skipn (length s - k) s.
(** s[:-k] with k > 0 *)
Definition dropl (k : nat) (s : str) : str := firstn (length s - k) s.

Fixpoint drop_while (p : char -> bool) (s : str) : str :=
  match s with
  | [] => []
  | c :: r => if p c then drop_while p r else s
  end.

Fixpoint take_while (p : char -> bool) (s : str) : str :=
  match s with
  | [] => []
  | c :: r => if p c then c :: take_while p r else []
  end.

(** s.count(c) *)
Fixpoint count (c : char) (s : str) : nat :=
  match s with
  | [] => 0
  | x :: r => (if N.eqb c x then 1 else 0) + count c r
  end.

(** s.split(sep) for a one-character separator *)
Fixpoint split_on (c : char) (s : str) : list str :=
  match s with
  | [] => [[]]
  | x :: r =>
      if N.eqb c x then [] :: split_on c r
      else match split_on c r with
           | [] => [[x]]
           | p :: ps => (x :: p) :: ps
           end
  end.

(** s.strip(c) *)
Definition strip_char (p : char -> bool) (s : str) : str :=
  rev (drop_while p (rev (drop_while p s))).

(** str.endswith *)
Definition ends_with (s suffix : str) : bool :=
  str_eqb (lastn (length suffix) s) suffix && (length suffix <=? length s).

(** Characters Python's argument-less str.split() treats as separators. *)
Definition is_space (c : char) : bool :=
  existsb (N.eqb c)
    [9; 10; 11; 12; 13; 28; 29; 30; 31; 32; 133; 160; 5760;
     8192; 8193; 8194; 8195; 8196; 8197; 8198; 8199; 8200; 8201; 8202;
     8232; 8233; 8239; 8287; 12288]%N.

(** s.split(): maximal runs of non-space characters. *)
Fixpoint split_ws_aux (cur : str) (s : str) : list str :=
  match s with
  | [] => match cur with [] => [] | _ => [rev cur] end
  | c :: r =>
      if is_space c
      then match cur with [] => split_ws_aux [] r | _ => rev cur :: split_ws_aux [] r end
      else split_ws_aux (c :: cur) r
  end.
Definition split_ws (s : str) : list str := split_ws_aux [] s.

(** str.lower() on one code point.  Exact on ASCII and on the only two other
    code points whose lower-case form contains an ASCII character (U+0130 and
    U+212A).  Simplification: every other code point is left unchanged; Python
    may map it to a different non-ASCII code point, which is not a Lojban
    letter before or after. *)
Definition lower_char (c : char) : str :=
  if (N.leb 65 c && N.leb c 90)%N then [(c + 32)%N]
  else if N.eqb c 304 then [105%N; 775%N]
  else if N.eqb c 8490 then [107%N]
  else [c].
Definition lower (s : str) : str := flat_map lower_char s.
