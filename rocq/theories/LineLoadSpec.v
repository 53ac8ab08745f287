(* Events and documents up to the distance from the start of the text; for C49. *)
From Verif Require Import Base Types DocModel ParserModel LoaderModel LoaderSpec LineSpec.

Definition placed_event (e : event) : ev * (N * N) * (N * N) := (e_ev e, place (e_start e), place (e_end e)).
Definition placed_perr (e : perr) : pproblem * option (N * N) * option (N * N) := (pe_problem e, option_map place (pe_context e), option_map place (pe_mark e)).
Definition same_result (r r' : presult) : Prop :=
  match r, r' with
  | Parsed, Parsed | MoreToCome, MoreToCome => True
  | Failed e, Failed e' => option_map placed_perr e = option_map placed_perr e'
  | _, _ => False
  end.
(* The calls of yaml_parser_load return the documents [ds] and then the end of the stream
   (None) or an error. *)
Definition loads (fuel : nat) (tokens : list token) (ds : list document) (ending : option (option (pproblem * option (N * N) * option (N * N)))) : Prop :=
  exists l, load_history fuel tokens ds l /\
    match load fuel l, ending with
    | LNoDocument _, None => True
    | LFailed l', Some e => option_map placed_perr (p_error (ld_parser l')) = e
    | _, _ => False
    end.
