(** Specification vocabulary for state files. *)
From Verif Require Import Base Lattice.
Open Scope Z_scope.

(** A state whose unit cell really is a unit cell: every vertex maps to a stored site, the
    stored sites lie in the lX x lY cell and represent themselves, the map has periods
    (lX,0) and (0,lY) and is translation consistent. *)
Record regular {T} (st : ipeps T) (sites : dict coord T) : Prop := {
  reg_sites : i_sites st = Some sites;
  reg_nodup : NoDup (dkeys sites);
  reg_pos : 0 < i_lX st /\ 0 < i_lY st;
  reg_total : forall v, exists k, i_v2s st v = Ok k /\ In k (dkeys sites);
  reg_fix : forall k, In k (dkeys sites) -> i_v2s st k = Ok k;
  reg_cell : forall k, In k (dkeys sites) -> 0 <= fst k < i_lX st /\ 0 <= snd k < i_lY st;
  reg_per : forall v, i_v2s st (cadd v (i_lX st, 0)) = i_v2s st v /\
                      i_v2s st (cadd v (0, i_lY st)) = i_v2s st v;
  reg_trans : forall v w d, i_v2s st v = i_v2s st w ->
                            i_v2s st (cadd v d) = i_v2s st (cadd w d)
}.
