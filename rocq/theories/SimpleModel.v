(** Model of the constructor of the backends without nuisance parameters (src/spey/backends/default_pdf/simple_pdf.py). *)
From Coq Require Import String List Reals.
From Verif Require Import Fl ConfigModel HelperModel DistModel DefaultModel.
Import ListNotations.
Local Open Scope R_scope.
Local Open Scope list_scope.

(** SimplePDFBase.__init__ (simple_pdf.py L172-221): the configuration. The names are given even if there is only the strength. *)
Definition init_simple (s : signal) (background : vec) (nsp : nat) (sb : option (list (option bound))) : config + init_err :=
  match minimum_poi_of s background with
  | None => inr MaskErr
  | Some mp =>
      match signal_bounds nsp sb with
      | inr e => inr e
      | inl sigb => inl (Config 0 mp (Num 1 :: repeat (Num 1) nsp) ((Some mp, Some (Num 10)) :: sigb) (Some ("mu"%string :: names_range "signal_par_" nsp)) None)
      end
  end.
(** Poisson.__init__ (simple_pdf.py L569-597): the configuration. With absolute uncertainties one free parameter per bin is added and no names are given. *)
Definition init_poisson (s : signal) (background data : vec) (sigma : option vec) : config + init_err :=
  match init_simple s background 0 None with
  | inr e => inr e
  | inl c =>
      match sigma with
      | None => inl c
      | Some u =>
          if Nat.eqb (List.length u) (List.length data)
          then inl (Config 0 (minimum_poi c) (repeat (Num 1) (List.length data + 1)) ((Some (minimum_poi c), Some (Num 10)) :: repeat (None, None) (List.length data)) None None)
          else inr AssertionErr
      end
  end.
