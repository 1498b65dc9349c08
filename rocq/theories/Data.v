(** The tables of data.py, transcribed (generated from the text of the file by
    tools/gen_data.py; each definition cites its lines). *)
From Verif Require Import Str.

Definition Ls (l : list string) : list str := map L l.
Arguments Ls l%list_scope.

(** data.py:8-188 *)
Definition VALID : list str := Eval vm_compute in Ls [
  "bd"; "bg"; "bj"; "bl"; "bm"; "bn"; "br"; "bv"; "bz"; "cf"; "ck"; "cl";
  "cm"; "cn"; "cp"; "cr"; "ct"; "db"; "dg"; "dj"; "dl"; "dm"; "dn"; "dr";
  "dv"; "dz"; "fc"; "fk"; "fl"; "fm"; "fn"; "fp"; "fr"; "fs"; "ft"; "fx";
  "gb"; "gd"; "gj"; "gl"; "gm"; "gn"; "gr"; "gv"; "gz"; "jb"; "jd"; "jg";
  "jl"; "jm"; "jn"; "jr"; "jv"; "kc"; "kf"; "kl"; "km"; "kn"; "kp"; "kr";
  "ks"; "kt"; "lb"; "lc"; "ld"; "lf"; "lg"; "lj"; "lk"; "lm"; "ln"; "lp";
  "lr"; "ls"; "lt"; "lv"; "lx"; "lz"; "mb"; "mc"; "md"; "mf"; "mg"; "mj";
  "mk"; "ml"; "mn"; "mp"; "mr"; "ms"; "mt"; "mv"; "mx"; "nb"; "nc"; "nd";
  "nf"; "ng"; "nj"; "nk"; "nl"; "nm"; "np"; "nr"; "ns"; "nt"; "nv"; "nx";
  "nz"; "pc"; "pf"; "pk"; "pl"; "pm"; "pn"; "pr"; "ps"; "pt"; "px"; "rb";
  "rc"; "rd"; "rf"; "rg"; "rj"; "rk"; "rl"; "rm"; "rn"; "rp"; "rs"; "rt";
  "rv"; "rx"; "rz"; "sf"; "sk"; "sl"; "sm"; "sn"; "sp"; "sr"; "st"; "sx";
  "tc"; "tf"; "tk"; "tl"; "tm"; "tn"; "tp"; "tr"; "ts"; "tx"; "vb"; "vd";
  "vg"; "vj"; "vl"; "vm"; "vn"; "vr"; "vz"; "xf"; "xl"; "xm"; "xn"; "xp";
  "xr"; "xs"; "xt"; "zb"; "zd"; "zg"; "zl"; "zm"; "zn"; "zr"; "zv"]%string.

(** data.py:190-190 *)
Definition MZ_VALID : list str := VALID ++ Ls ["mz"%string].

(** data.py:192-241 *)
Definition INITIAL : list str := Eval vm_compute in Ls [
  "bl"; "br"; "cf"; "ck"; "cl"; "cm"; "cn"; "cp"; "cr"; "ct"; "dj"; "dr";
  "dz"; "fl"; "fr"; "gl"; "gr"; "jb"; "jd"; "jg"; "jm"; "jv"; "kl"; "kr";
  "ml"; "mr"; "pl"; "pr"; "sf"; "sk"; "sl"; "sm"; "sn"; "sp"; "sr"; "st";
  "tc"; "tr"; "ts"; "vl"; "vr"; "xl"; "xr"; "zb"; "zd"; "zg"; "zm"; "zv"]%string.

(** data.py:243-260 *)
Definition ZIhEVLA_INITIAL : list str := Eval vm_compute in Ls [
  "bl"; "br"; "dr"; "fl"; "fr"; "gl"; "gr"; "kl"; "kr"; "ml"; "mr"; "pl";
  "pr"; "tr"; "vl"; "vr"]%string.

(** data.py:262-267 *)
Definition BANNED_TRIPLES : list str := Eval vm_compute in Ls [
  "ndj"; "ndz"; "ntc"; "nts"]%string.

(** data.py:269-279 *)
Definition START_VOWEL_CLUSTERS : list str := Eval vm_compute in Ls [
  "a"; "e"; "i"; "o"; "u"; "au"; "ai"; "ei"; "oi"]%string.

(** data.py:281-300 *)
Definition FOLLOW_VOWEL_CLUSTERS : list str := Eval vm_compute in Ls [
  "ia"; "ie"; "ii"; "io"; "iu"; "iau"; "iai"; "iei"; "ioi"; "ua"; "ue";
  "ui"; "uo"; "uu"; "uau"; "uai"; "uei"; "uoi"]%string.

(** data.py:302-309 *)
Definition HYPHENS : list str := Eval vm_compute in Ls [
  "r"; "n"; "y"; "'y"; "y'"; "'y'"]%string.
