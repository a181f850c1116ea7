(* The object graph of /repo/config/scao/params_scao_sh.yml (only the entries that
   matter for references), used as a concrete configuration in the Examples. *)
From Coq Require Import String List.
From Verif Require Import PyBase.
Import ListNotations.
Local Open Scope string_scope.

Definition ins (l : list (string * yval)) : string * yval := ("inputs", YDict l).
Definition outs (l : list string) : string * yval := ("outputs", YList (map YStr l)).

Definition scao : params :=
  [ ("main", [("class", YStr "SimulParams"); ("time_step", YFloat "0.001")]);
    ("seeing", [("class", YStr "WaveGenerator"); outs ["output"]]);
    ("wind_speed", [("class", YStr "WaveGenerator"); outs ["output"]]);
    ("wind_direction", [("class", YStr "WaveGenerator"); outs ["output"]]);
    ("on_axis_source", [("class", YStr "Source")]);
    ("pupilstop", [("class", YStr "Pupilstop"); ("simul_params_ref", YStr "main")]);
    ("atmo", [("class", YStr "AtmoEvolution"); ("simul_params_ref", YStr "main");
              ins [("seeing", YStr "seeing.output"); ("wind_speed", YStr "wind_speed.output");
                   ("wind_direction", YStr "wind_direction.output")]; outs ["layer_list"]]);
    ("prop", [("class", YStr "AtmoPropagation"); ("simul_params_ref", YStr "main");
              ("source_dict_ref", YList [YStr "on_axis_source"]);
              ins [("atmo_layer_list", YList [YStr "atmo.layer_list"]);
                   ("common_layer_list", YList [YStr "pupilstop"; YStr "dm.out_layer:-1"])];
              outs ["out_on_axis_source_ef"]]);
    ("launcher", [("class", YStr "LaserLaunchTelescope")]);
    ("sh", [("class", YStr "SH"); ("laser_launch_tel_ref", YStr "launcher");
            ins [("in_ef", YStr "prop.out_on_axis_source_ef")]; outs ["out_i"]]);
    ("detector", [("class", YStr "CCD"); ("simul_params_ref", YStr "main");
                  ins [("in_i", YStr "sh.out_i")]; outs ["out_pixels"]]);
    ("slopec", [("class", YStr "ShSlopec"); ins [("in_pixels", YStr "detector.out_pixels")];
                outs ["out_slopes"; "out_subapdata"]]);
    ("rec", [("class", YStr "Modalrec"); ins [("in_slopes", YStr "slopec.out_slopes")];
             outs ["out_modes"; "out_pseudo_ol_modes"]]);
    ("control", [("class", YStr "Integrator"); ("simul_params_ref", YStr "main");
                 ins [("delta_comm", YStr "rec.out_modes")]; outs ["out_comm"]]);
    ("dm", [("class", YStr "DM"); ("simul_params_ref", YStr "main");
            ins [("in_command", YStr "control.out_comm")]; outs ["out_layer"]]);
    ("psf", [("class", YStr "PSF"); ("simul_params_ref", YStr "main");
             ins [("in_ef", YStr "prop.out_on_axis_source_ef")]; outs ["out_psf"; "out_sr"]]);
    ("data_store", [("class", YStr "DataStore"); ("store_dir", YStr "./output");
                    ins [("input_list", YList [YStr "res_ef-prop.out_on_axis_source_ef"])]]) ].
