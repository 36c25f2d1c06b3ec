(** Reading results: results.py 482-508 [extract_single_result], [extract_results], 129-199 [CalculationResults.flow_results],
    [CalculationResults.to_dataframe], 401-447 [FlowResults.to_dataframe], [ComponentResults.to_dataframe]. *)
From Verif Require Import Base MathModel Structure Params Features Elements System Tree Values Results.

(** results.py 482-492 [extract_single_result] on results, where None is also a value (a variable without solution). *)
Definition single_result (t : tree leaf) (keys : list string) : option (tree leaf) :=
  match extract t keys with Some (Leaf LNone) => None | o => o end.
(** results.py 495-508 [extract_results]: with keep_none every item has an entry, without it those of value None are left out. *)
Definition extract_results (d : list (string * tree leaf)) (keys : list string) (keep_none : bool) : list (string * option (tree leaf)) :=
  let data := map (fun kv => (fst kv, single_result (snd kv) keys)) d in
  if keep_none then data else filter (fun kv => match snd kv with Some _ => true | None => false end) data.

(** results.py 88-98: the component of a label; a later one of the same label replaces an earlier one. *)
Definition component_of (fs : flow_system) (label : string) : option component :=
  find (fun c => String.eqb (cp_label c) label) (rev (fs_comps fs)).

(** results.py 434-447 [ComponentResults.to_dataframe]; a factor of None leaves out one side. *)
Definition component_table (r : list (string * tree leaf)) (c : component) (var : string) (inf outf : option Q) : res (list (string * list Q)) :=
  t <- of_option KeyError (extract (Node r) ["Components"; cp_label c]) ;;
  fl <- component_flows t c ;;
  let side (k : option Q) (l : list flow_result) :=
    match k with
    | None => Ok []
    | Some q => mapM (fun f => v <- column q (extract (fr_vars f) [var]) ;; Ok (fr_full f, v)) l
    end in
  ins <- side inf (filter fr_input fl) ;;
  outs <- side outf (filter (fun f => negb (fr_input f)) fl) ;;
  Ok (str_dict (str_dict ins ++ str_dict outs)).

(** results.py 410-411 [FlowResults.to_dataframe]. *)
Definition flow_table (f : flow_result) (var : string) : res (list (string * list Q)) :=
  v <- column 1 (extract (fr_vars f) [var]) ;; Ok [(var, v)].

(** A pandas DataFrame: columns by name and the labels of the rows. *)
Record frame : Type := mkFrame { fm_columns : list (string * list Q); fm_index : list Q }.

(** results.py 183-184: columns in which some value exceeds the threshold. *)
Definition exceeds (th q : Q) : bool := (negb (Qle_bool q th) || negb (Qle_bool (-1 * th) q))%bool.
Definition above (th : option Q) (cols : list (string * list Q)) : list (string * list Q) :=
  match th with None => cols | Some th => filter (fun nc => existsb (exceeds th) (snd nc)) cols end.

(** results.py 185-199: the rows get the time stamps as labels; the last row is repeated for the end of the last step. Columns of one frame have
    one length; an index of another length raises ValueError. An empty frame is returned as it is, with row numbers as index (results.py 185-186). *)
Definition indexed (times : list Q) (with_last : bool) (cols : list (string * list Q)) : res frame :=
  match cols with
  | [] => Ok (mkFrame [] [])
  | (_, l) :: _ =>
      let n := length (removelast times) in
      _ <- guard (forallb (fun nc => Nat.eqb (length (snd nc)) (length l)) cols) ValueError ;;
      if Nat.eqb (length l) 0 then Ok (mkFrame cols [])
      else if with_last then
        let cols' := if Nat.eqb (length l) n then map (fun nc => (fst nc, snd nc ++ [last (snd nc) 0])) cols else cols in
        _ <- guard (forallb (fun nc => Nat.eqb (length (snd nc)) (length times)) cols') ValueError ;;
        Ok (mkFrame cols' times)
      else if Nat.eqb (length l) (length times) then Ok (mkFrame cols times)
      else _ <- guard (Nat.eqb (length l) n) ValueError ;; Ok (mkFrame cols (removelast times))
  end.

(** results.py 134-199 [CalculationResults.to_dataframe]; both factors of a bus given. *)
Definition to_dataframe (r : list (string * tree leaf)) (fs : flow_system) (label var : string) (inf outf : Q) (th : option Q) (with_last : bool)
  : res frame :=
  times <- match extract (Node r) ["Time"] with Some (Leaf (LArr _ l)) => Ok l | _ => Err KeyError end ;;
  fl <- flow_results r fs ;;
  let bus := extract (Node r) ["Buses"; label] in
  let comp := component_of fs label in
  cols <- match bus, comp, sget label fl with
          | Some _, _, Some _ | _, Some _, Some _ => Err PyException
          | Some _, _, None => bus_table r fs label var inf outf
          | None, Some c, None => component_table r c var (Some inf) (Some outf)
          | None, None, Some f => flow_table f var
          | None, None, None => Err ValueError
          end ;;
  indexed times with_last (above th cols).
