-Q theories Verif
theories/E_Accuracy.v
theories/E_Acne.v
theories/E_Algebra.v
theories/E_Ball.v
theories/E_Bend.v
theories/E_Bounded.v
theories/E_CameraFloat.v
theories/E_Egg.v
theories/E_FlatLeave.v
theories/E_Fog.v
theories/E_Found.v
theories/E_Image.v
theories/E_Interval.v
theories/E_Light.v
theories/E_Measure.v
theories/E_Nearest.v
theories/E_Picture.v
theories/E_Programs.v
theories/E_Random.v
theories/E_Scene.v
theories/E_Shallow.v
theories/E_Shapes.v
theories/E_Shown.v
theories/E_Solvers.v
theories/E_Surfaces.v
theories/E_View.v
theories/E_World.v
theories/FL.v
theories/M_Array.v
theories/M_Curvature.v
theories/M_Fog.v
theories/M_Fractal.v
theories/M_Hittable.v
theories/M_Image.v
theories/M_Interval.v
theories/M_Iter.v
theories/M_Materials.v
theories/M_Matrix.v
theories/M_Programs.v
theories/M_Rng.v
theories/M_Roots.v
theories/M_Shapes.v
theories/M_Surfaces.v
theories/M_Tables.v
theories/M_Vec.v
theories/M_World.v
theories/Num.v
theories/P_Accuracy.v
theories/P_Acne.v
theories/P_Angle.v
theories/P_Array.v
theories/P_BVH.v
theories/P_Ball.v
theories/P_Basin.v
theories/P_Bend.v
theories/P_Bisect.v
theories/P_Bounded.v
theories/P_Bounded3.v
theories/P_Bounds.v
theories/P_Box.v
theories/P_BoxFloat.v
theories/P_Camera.v
theories/P_CameraFloat.v
theories/P_Can.v
theories/P_Centre.v
theories/P_Condition.v
theories/P_Cost.v
theories/P_Cubic.v
theories/P_Curvature.v
theories/P_Curvature2.v
theories/P_Cylinder.v
theories/P_Deriv.v
theories/P_Directions.v
theories/P_Disks.v
theories/P_Double.v
theories/P_Egg.v
theories/P_EggNormal.v
theories/P_Ellipsoid.v
theories/P_Enneper.v
theories/P_Equi.v
theories/P_FL.v
theories/P_Fifths.v
theories/P_Flat.v
theories/P_FlatLeave.v
theories/P_FlatMetal.v
theories/P_Floats.v
theories/P_Fog.v
theories/P_Found.v
theories/P_Fractal.v
theories/P_Furnace.v
theories/P_Glass.v
theories/P_Halley.v
theories/P_Helicoid.v
theories/P_Hierarchy.v
theories/P_Hits.v
theories/P_Hue.v
theories/P_Image.v
theories/P_Interval.v
theories/P_IntervalFL.v
theories/P_Ko.v
theories/P_Lambert.v
theories/P_Leave.v
theories/P_Light.v
theories/P_List.v
theories/P_ListBox.v
theories/P_Maps.v
theories/P_Marbles.v
theories/P_Margin.v
theories/P_Matrix.v
theories/P_Measure.v
theories/P_Medium.v
theories/P_Missed.v
theories/P_Names.v
theories/P_Nearest.v
theories/P_Newton.v
theories/P_NewtonND.v
theories/P_Normals.v
theories/P_Order.v
theories/P_Path.v
theories/P_Period.v
theories/P_Pick.v
theories/P_Picture.v
theories/P_Png.v
theories/P_Programs.v
theories/P_Quadratic.v
theories/P_Quartic.v
theories/P_Refract.v
theories/P_Render.v
theories/P_Rng.v
theories/P_Round.v
theories/P_Sampler.v
theories/P_Scenes.v
theories/P_Shades.v
theories/P_Shallow.v
theories/P_Shown.v
theories/P_ShownPrograms.v
theories/P_Shows.v
theories/P_Sort.v
theories/P_Sphere.v
theories/P_SphereFloat.v
theories/P_SphereHit.v
theories/P_Spiral.v
theories/P_Stale.v
theories/P_Surround.v
theories/P_Systems.v
theories/P_Torus.v
theories/P_Tree.v
theories/P_Vec.v
theories/P_View.v
theories/P_Viewport.v
theories/P_Void.v
theories/P_Width.v
theories/P_World.v
theories/Spec.v
theories/Spec_Accuracy.v
theories/Spec_Bend.v
theories/Spec_Egg.v
theories/Spec_Fog.v
theories/Spec_Fractal.v
theories/Spec_Hierarchy.v
theories/Spec_Image.v
theories/Spec_Interval.v
theories/Spec_Iter.v
theories/Spec_Light.v
theories/Spec_Matrix.v
theories/Spec_Measure.v
theories/Spec_Nearest.v
theories/Spec_Order.v
theories/Spec_Programs.v
theories/Spec_Random.v
theories/Spec_Scene.v
theories/Spec_Shades.v
theories/Spec_Shapes.v
theories/Spec_Shown.v
theories/Spec_Solver.v
theories/Spec_Surfaces.v
theories/Spec_World.v
theories/T_Accuracy.v
theories/T_Algebra.v
theories/T_Image.v
theories/T_Interval.v
theories/T_Leave.v
theories/T_Light.v
theories/T_Measure.v
theories/T_Nearest.v
theories/T_Pictures.v
theories/T_Programs.v
theories/T_Random.v
theories/T_Scene.v
theories/T_Shapes.v
theories/T_Shown.v
theories/T_Solvers.v
theories/T_Surfaces.v
theories/T_World.v
theories/XR.v
