(** Names are used once: what maps with operations guarantee. *)
From Verif Require Import Base DiagramModel DiagramSpec.

(** The operations of the diagram, of every template and of every scope have
    different names (they are kept in maps, diagram.rs 391, scope_schema.rs 116, section_schema.rs 374). *)
Definition distinct (d : diagram) : Prop :=
  NoDup (map fst (d_ops d)) /\
  (forall t T, find t (d_templates d) = Some T -> NoDup (map fst (t_ops T))) /\
  (forall ns id start ops streams next, occurs d ns id (OScope start ops streams next) -> NoDup (map fst ops)).
