(** Model of the textual representations of grids, forcing terms and models
    (src/barotropic/formatting.py:32-41, 65-72, rhs.py:38-39, 51-52).  Text is the
    list of its code points. *)
From Coq Require Export String.
From Verif Require Export Base Model_Grid Model_Format Model_Time Model_Spectral Model_State Model_Run Model_RHS.
From Coq Require Import Ascii.

(** string literals of the source are UTF-8 *)
Fixpoint bytes (s : string) : list Z :=
  match s with EmptyString => [] | String a s => Z.of_nat (nat_of_ascii a) :: bytes s end.
Fixpoint utf8 (fuel : nat) (l : list Z) : text :=
  match fuel with
  | O => []
  | S fuel =>
      match l with
      | [] => []
      | a :: l1 =>
          if (a <? 128)%Z then a :: utf8 fuel l1
          else if (a <? 224)%Z then match l1 with b :: l2 => ((a - 192) * 64 + (b - 128))%Z :: utf8 fuel l2 | _ => [] end
          else match l1 with b :: c :: l3 => ((a - 224) * 4096 + (b - 128) * 64 + (c - 128))%Z :: utf8 fuel l3 | _ => [] end
      end
  end.
Definition txt (s : string) : text := utf8 (String.length s) (bytes s).

(** "\n".join(lines) *)
Definition newline : Z := 10%Z.
Fixpoint join_lines (lines : list text) : text :=
  match lines with
  | [] => []
  | [l] => l
  | l :: lines => l ++ newline :: join_lines lines
  end.

Definition nat_text (n : nat) : text := int_text (Z.of_nat n).

(** grid_repr, formatting.py:32-41; [str] is the text of a float, [legfunc] the
    attribute of the pyspharm object *)
Definition grid_repr (str : R -> text) (legfunc : text) (g : grid) : text :=
  join_lines [
    txt "<barotropic.Grid> with";
    txt "    (nlat, nlon) = (" ++ nat_text (g_nlat g) ++ txt ", " ++ nat_text (g_nlon g) ++ txt ")";
    txt "    resolution   = " ++ str (g_res g) ++ txt "°";
    txt "    rsphere      = " ++ str (g_rsphere g) ++ txt " m";
    txt "    omega        = " ++ str (g_omega g) ++ txt " s⁻¹";
    txt "    ntrunc       = " ++ nat_text (g_ntrunc g);
    txt "    legfunc      = " ++ legfunc
  ].

(** repr of forcing terms: _RHSSum.__repr__, rhs.py:38-39, _RHSProduct.__repr__,
    rhs.py:51-52; the other terms have the representation of their class, here
    the arbitrary function [term_text] *)
Fixpoint rhs_repr {K} (term_text : obj K -> text) (a : obj K) : text :=
  match a with
  | PSum a b => txt "(" ++ rhs_repr term_text a ++ txt " + " ++ rhs_repr term_text b ++ txt ")"
  | PProd a b => txt "(" ++ rhs_repr term_text a ++ txt " * " ++ rhs_repr term_text b ++ txt ")"
  | _ => term_text a
  end.

(** barotropic_model_repr, formatting.py:65-72; [str5e] is "{:.5e}".format,
    [rhs_text] is repr(model.rhs) *)
Definition barotropic_model_repr {K} (str5e : R -> text) (rhs_text : text) (M : bmodel K) : text :=
  let exp := sup (2 * Z.of_nat (m_order M)) in
  join_lines [
    txt "<barotropic.BarotropicModel> integrating";
    txt "    ∂q/∂t = -∇(u·q) - κ∇" ++ exp ++ txt "q + RHS ";
    txt "    where κ   = " ++ str5e (m_coeff M) ++ txt " m" ++ exp ++ txt "s⁻¹";
    txt "    and   RHS = " ++ rhs_text
  ].
