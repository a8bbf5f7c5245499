(** * Model of /repo/src/lamberthub/__init__.py *)
From Coq Require Import List.
Import ListNotations.
From Verif Require Import Num MApi MScipy MVallado MGauss MIzzo MBattin MArora MDelatorre
  MGooding MJiang MPan MDer MThorne MAvanzini MMcelreath MNegrete.

(** The imported solvers, __init__.py:3-16. *)
Inductive solver : Type :=
| Gauss | Battin | Jiang | Pan | Gooding | Der | Thorne | Avanzini | Arora | Vallado
| Izzo | Negrete | McElreath | Delatorre.

(** Calling a solver. *)
Definition run {N : Num} (s : solver) (ev : env) (a : args) : res out :=
  match s with
  | Gauss => gauss1809 (e_clock ev) a
  | Battin => battin1984 (e_clock ev) a
  | Jiang => jiang2016 ev a
  | Pan => pan2016 ev a
  | Gooding => gooding1990 ev a
  | Der => der2011 ev a
  | Thorne => thorne2004 ev a
  | Avanzini => avanzini2008 ev a
  | Arora => arora2013 ev a
  | Vallado => vallado2013 (e_clock ev) (e_fuel ev) a
  | Izzo => izzo2015 a
  | Negrete => negrete2024 ev a
  | McElreath => mcelreath2025 ev a
  | Delatorre => delatorre2018 ev a
  end.

(** __init__.py:21-36 *)
Definition ALL_SOLVERS : list solver :=
  [Gauss; Battin; Jiang; Pan; Gooding; Der; Thorne; Avanzini; Arora; Vallado; Izzo;
   Negrete; McElreath; Delatorre].

(** __init__.py:39-52 *)
Definition ZERO_REV_SOLVERS : list solver :=
  [Battin; Jiang; Pan; Gooding; Der; Thorne; Avanzini; Arora; Izzo; Negrete;
   McElreath; Delatorre].

(** __init__.py:55-63 *)
Definition MULTI_REV_SOLVERS : list solver :=
  [Gooding; Der; Arora; Izzo; Negrete; McElreath; Delatorre].

(** __init__.py:66 *)
Definition NON_ROBUST_SOLVERS : list solver := [Gauss].

(** __init__.py:69-77 *)
Definition ROBUST_SOLVERS : list solver :=
  [Gooding; Der; Arora; Izzo; Negrete; McElreath; Delatorre].
