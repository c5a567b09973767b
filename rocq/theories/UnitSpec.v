(* UnitSpec.v: the supported units in terms of coherent base quantities,
   independent of the conversion functions.  A measurement x in unit u is the
   quantity scale*x + offset of dimension dim. *)
From Verif Require Export UnitModel.
Record unit_def := mkU { u_dim : string; u_scale : Q; u_offset : Q }.
Definition si : list (string * unit_def) :=
  [ ("m", mkU "length" 1 0); ("mm", mkU "length" (1 # 1000) 0); ("cm", mkU "length" (1 # 100) 0);
    ("um", mkU "length" (1 # 1000000) 0); ("km", mkU "length" 1000 0);
    ("s", mkU "time" 1 0); ("min", mkU "time" 60 0); ("h", mkU "time" 3600 0); ("d", mkU "time" 86400 0);
    ("K", mkU "temperature" 1 0); ("C", mkU "temperature" 1 (27315 # 100));
    ("kg kg-1", mkU "fraction" 1 0); ("g kg-1", mkU "fraction" (1 # 1000) 0);
    (* one degree is 1/57.295779513 radian, the code's approximation of pi/180 *)
    ("radian", mkU "angle" 1 0); ("degree", mkU "angle" (1000000000 # 57295779513) 0);
    ("degree_north", mkU "angle" (1000000000 # 57295779513) 0);
    ("degree_east", mkU "angle" (1000000000 # 57295779513) 0);
    ("Pa", mkU "pressure" 1 0); ("hPa", mkU "pressure" 100 0);
    ("m s-1", mkU "speed" 1 0); ("km h-1", mkU "speed" (1000 # 3600) 0);
    (* erg cm-2 s-1 = 1e-7 J / (1e-4 m2 s) *)
    ("W m-2", mkU "flux" 1 0); ("erg cm-2 s-1", mkU "flux" (1 # 1000) 0) ]%string.
Definition quantity (u : unit_def) (x : Q) : Q := (u_scale u * x + u_offset u)%Q.
