(** The public functions of latkerlo_jvotci (__init__.py:6-10) as functions of
    their arguments alone: the mutually recursive core of Core.v run with enough
    fuel.  Fuel.v proves that more fuel never changes any result and that
    [OutOfFuel] is never the result.

    Every function takes the [binding] of the name is_slinkuhi in jvozba.py (see
    Core.v).  [Unbound] is the repository at the pinned commit. *)
From Verif Require Import Str Data Tarmi Rafsi Core.

(** Enough recursion depth for any word of this length. *)
Definition word_fuel (w : str) : nat := 2 * length w + 8.
Definition list_fuel (l : list str) : nat := 2 * length (concat l) + 10.

(** tools.py:239-470 *)
Definition analyse_brivla (lk : binding) (st : settings) (valsi : str) : res (wtype * list str) :=
  analyse lk (word_fuel valsi) st valsi.

(** tools.py:213-236 *)
Definition is_brivla (lk : binding) (st : settings) (valsi : str) : res bool :=
  Core.is_brivla (analyse_brivla lk) st valsi.

(** tools.py:57-75 *)
Definition is_slinkuhi (lk : binding) (yh : yset) (mz : bool) (s : str) : res bool :=
  Core.is_slinkuhi (jvokaha lk (word_fuel s)) yh mz s.

(** tools.py:30-54 *)
Definition is_gismu_or_lujvo (lk : binding) (yh : yset) (mz : bool) (s : str) : res bool :=
  Core.is_gismu_or_lujvo (jvokaha lk (word_fuel s)) yh mz s.

(** The two accepted types of the tanru argument, jvozba.py:55-60.  Any other
    Python type raises TypeError, which is not modelled. *)
Inductive tanru := TStr (s : str) | TList (l : list str).

Fixpoint map_res {A B} (f : A -> res B) (l : list A) : res (list B) :=
  match l with
  | [] => Ok []
  | a :: r => b <- f a ;; bs <- map_res f r ;; Ok (b :: bs)
  end.

(** jvozba.py:48-67 *)
Definition process_tanru (t : tanru) : res (list str) :=
  map_res normalise (match t with TStr s => split_ws s | TList l => l end).

(** jvozba.py:422-505 *)
Definition lujvo_from_list (lk : binding) (gen : bool) (st : settings) (valsi_list : list str) : res entry :=
  let f := list_fuel valsi_list in
  get_lujvo_from_list lk (analyse lk f) (jvokaha lk f) valsi_list gen st.

(** jvozba.py:508-537 *)
Definition get_lujvo_with_analytics (lk : binding) (gen : bool) (st : settings) (t : tanru) : res entry :=
  l <- process_tanru t ;; lujvo_from_list lk gen st l.

(** jvozba.py:540-568 *)
Definition get_lujvo (lk : binding) (gen : bool) (st : settings) (t : tanru) : res str :=
  l <- process_tanru t ;;
  let* '(w, _, _) := lujvo_from_list lk gen st l in
  Ok w.

(** katna.py:23-27: the search over the five vowels *)
Definition gismu_of_four (rafsi : str) : option str :=
  match find (fun v => match dict_get (rafsi ++ [v]) with Some _ => true | None => false end) VOWELS with
  | Some v => Some (rafsi ++ [v])
  | None => None
  end.

(** katna.py:28-30 *)
Definition dict_find (rafsi : str) : option str :=
  match find (fun kv => mems rafsi (snd kv)) RAFSI_LIST with
  | Some kv => Some (fst kv)
  | None => None
  end.

(** katna.py:15-30 *)
Definition search_selrafsi_from_rafsi (rafsi : str) : option str :=
  match (if negb (str_eqb rafsi (L "brod")) && (length rafsi =? 4) && negb (memc c_h rafsi)
         then gismu_of_four rafsi else None) with
  | Some g => Some g
  | None => dict_find rafsi
  end.

(** katna.py:48-62: what is put at position [i], for the piece [x] whose hyphens
    have been blanked, [n] pieces in total, [next] the piece after it. *)
Definition selrafsi_at (lk : binding) (yh : yset) (mz : bool) (n i : nat) (x : str) (next : option str)
  : res str :=
  let st := mkSettings yh false CLUSTER false mz in
  match x with
  | [] => Ok []
  | _ =>
      match search_selrafsi_from_rafsi x with
      | Some s => Ok s
      | None =>
          before_y <- (if i <? n - 2 then
                         match next with
                         | Some nx => c <- idx nx 0 ;; Ok (N.eqb c c_y)
                         | None => Err IndexError
                         end
                       else Ok false) ;;
          b1 <- (if before_y : bool then is_brivla lk st (x ++ [c_a]) else Ok false) ;;
          if b1 : bool then Ok (x ++ [c_dash])
          else
            b2 <- is_brivla lk st x ;;
            if b2 : bool then Ok x
            else
              b3 <- (if i =? n - 1 then is_brivla lk st (x ++ [c_a]) else Ok false) ;;
              if b3 : bool then Ok (x ++ [c_dash]) else Ok (dashed x)
      end
  end.

Fixpoint selrafsi_loop (lk : binding) (yh : yset) (mz : bool) (n i : nat) (l : list str) : res (list str) :=
  match l with
  | [] => Ok []
  | x :: rest =>
      s <- selrafsi_at lk yh mz n i (if mems x HYPHENS then [] else x) (nth_error rest 0) ;;
      ss <- selrafsi_loop lk yh mz n (S i) rest ;;
      Ok (match s with [] => ss | _ => s :: ss end)
  end.

(** katna.py:33-63 *)
Definition selrafsi_list_from_rafsi_list (lk : binding) (yh : yset) (mz : bool) (rafsi_list : list str)
  : res (list str) := selrafsi_loop lk yh mz (length rafsi_list) 0 rafsi_list.

(** katna.py:268-298 *)
Definition get_veljvo (lk : binding) (st : settings) (lujvo : str) : res (list str) :=
  let* '(t, rafsi_list) := analyse_brivla lk st lujvo in
  match t with
  | LUJVO | EXTENDED_LUJVO | CMEVLA =>
      selrafsi_list_from_rafsi_list lk (y_hyphens st) (allow_mz st) rafsi_list
  | _ => Err DecompositionError
  end.

(** katna.py:260-264: the score of one piece *)
Definition piece_score (r : str) : Z :=
  if mems r (Ls ["y"; "n"; "r"; ""]%string) then (1000 * Z.of_nat (length r))%Z else score r.

(** katna.py:251-265 *)
Definition score_lujvo (lk : binding) (st : settings) (lujvo : str) : res Z :=
  _ <- get_veljvo lk st lujvo ;;
  let* '(_, decomp) := analyse_brivla lk st lujvo in
  Ok (fold_right Z.add 0%Z (map piece_score decomp) - tiebreak lujvo)%Z.
