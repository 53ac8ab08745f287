(* The blocks that belong to an emitter. *)
From Verif Require Import Base ReaderModel Types DocModel HeapModel HeapSpec HeapEmitModel.

Definition em_blocks (m : em) : list nat :=
  ptr_blocks (m_buffer m) ++ ptr_blocks (m_raw m) ++ ptr_blocks (a_at (m_states m)) ++
  flat_map ev_blocks (a_els (m_events m)) ++ ptr_blocks (a_at (m_events m)) ++
  ptr_blocks (a_at (m_indents m)) ++ tags_blocks (m_tags m).
