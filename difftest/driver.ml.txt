open Model
let rec pos_of_int i = if i = 1 then XH else if i land 1 = 1 then XI (pos_of_int (i lsr 1)) else XO (pos_of_int (i lsr 1))
let n_of_int i = if i = 0 then N0 else Npos (pos_of_int i)
let rec int_of_pos = function XH -> 1 | XI p -> 2*int_of_pos p+1 | XO p -> 2*int_of_pos p
let int_of_n = function N0 -> 0 | Npos p -> int_of_pos p
let () =
  try while true do
    let l = input_line stdin in
    let cs = List.filter (fun x -> x <> "") (String.split_on_char ' ' l) in
    let s = List.map (fun x -> n_of_int (int_of_string x)) cs in
    (match render 60 s with
     | Ret o -> print_string ("R " ^ String.concat " " (List.map (fun c -> string_of_int (int_of_n c)) o) ^ "\n")
     | Panic -> print_string "P\n"
     | Hang -> print_string "H\n")
  done with End_of_file -> ()
