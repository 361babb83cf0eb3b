open Prelude
let mkuc w = Chars.{ cfg_windows = w;
  u_lowercase = (fun c -> c >= 224 && c <= 255 && c <> 247);
  u_uppercase = (fun c -> c >= 192 && c <= 222 && c <> 215);
  u_numeric = (fun c -> c = 178 || c = 179);
  u_alphabetic = (fun c -> (c >= 192 && c <= 255 && c <> 215 && c <> 247) || c = 170 || c = 0x4e00);
  u_whitespace = (fun c -> c = 133 || c = 160 || c = 0x2003) }
let modes = Utils.[| Sensitive; Insensitive; Smart |]
let schemes = Scoring.[| SchemeDefault; SchemePath; SchemeHistory |]
let algos = Api.[| AlgoV1; AlgoV2 |]
let uc = ref (mkuc false) and m = ref (Api.metric_new Api.AlgoV1) and ps = ref Parser.parser_new and q = ref None
let ints l = if l = ["-"] then [] else List.map int_of_string l
let rec split l = match l with "/" :: t -> [], t | x :: t -> let a, b = split t in x :: a, b | [] -> [], []
let rec pairs l = match l with a :: b :: t -> (a,b) :: pairs t | _ -> []
let shows rs = "[" ^ String.concat "," (List.map (fun (a,b) -> Printf.sprintf "(%d,%d)" a b) rs) ^ "]"
let sd = function None -> "none" | Some d -> string_of_int (Obj.magic d : int)
let () = try while true do
  match String.split_on_char ' ' (input_line stdin) with
  | ["new"; a; w] -> uc := mkuc (w = "1"); m := Api.metric_new algos.(int_of_string a); ps := Parser.parser_new
  | ["case"; k] -> m := Api.set_case_sensitivity !m modes.(int_of_string k)
  | ["norm"; k] -> m := Api.set_candidate_normalization !m (k = "1")
  | ["scheme"; k] -> m := Api.set_scoring_scheme !uc !m schemes.(int_of_string k)
  | "q" :: e :: t ->
    (match (if e = "e" then Parser.parse !uc !ps (ints t) else Parser.parse_not_extended !uc !ps (ints t)) with
     | Ok (x, p) -> q := Some x; ps := p; print_endline "parsed"
     | Panic -> print_endline "panic-parse" | OutOfFuel -> print_endline "fuel")
  | "d" :: r :: t -> let c, i = split t in let c = ints c and i = pairs (ints i) in
    let Some x = !q in
    if r = "1" then (match Api.metric_distance_and_ranges !uc !m x c i with
      | Ok ((d, m'), rs) -> m := m'; Printf.printf "%s %s\n" (sd d) (shows rs)
      | Panic -> print_endline "panic" | OutOfFuel -> print_endline "fuel")
    else (match Api.metric_distance !uc !m x c with
      | Ok (d, m') -> m := m'; print_endline (sd d)
      | Panic -> print_endline "panic" | OutOfFuel -> print_endline "fuel")
  | l -> failwith (String.concat " " l)
done with End_of_file -> ()
