-Q theories Verif
theories/Model_Assembly.v
theories/Model_Base.v
theories/Model_Bemio.v
theories/Model_Block.v
theories/Model_Bodies.v
theories/Model_Body.v
theories/Model_Box.v
theories/Model_Cache.v
theories/Model_Clip.v
theories/Model_Cluster.v
theories/Model_Cylinder.v
theories/Model_Dataset.v
theories/Model_Engine.v
theories/Model_Files.v
theories/Model_Fill.v
theories/Model_Geometry.v
theories/Model_Grid.v
theories/Model_Hams.v
theories/Model_Hydro.v
theories/Model_Hydroset.v
theories/Model_Integrals.v
theories/Model_Lazy.v
theories/Model_Lid.v
theories/Model_LinSolve.v
theories/Model_LowRank.v
theories/Model_Matrices.v
theories/Model_Mesh.v
theories/Model_Nemoh.v
theories/Model_Normals.v
theories/Model_Points.v
theories/Model_Precond.v
theories/Model_Problem.v
theories/Model_Prony.v
theories/Model_PronyGreen.v
theories/Model_Quadrature.v
theories/Model_Quality.v
theories/Model_Rankine.v
theories/Model_Rao.v
theories/Model_Results.v
theories/Model_Ring.v
theories/Model_Separate.v
theories/Model_Slice.v
theories/Model_Solver.v
theories/Model_Symbolic.v
theories/Model_TabCache.v
theories/Model_Tabulation.v
theories/Model_Tecplot.v
theories/Model_TestMatrix.v
theories/Model_Text.v
theories/Model_Timer.v
theories/Model_Tree.v
theories/Model_Warnings.v
theories/Model_Wave.v
theories/Proofs_ACA.v
theories/Proofs_ACA2.v
theories/Proofs_Airy.v
theories/Proofs_Assembly.v
theories/Proofs_Assembly2.v
theories/Proofs_Assembly3.v
theories/Proofs_Assembly4.v
theories/Proofs_Assembly5.v
theories/Proofs_Bemio.v
theories/Proofs_Block.v
theories/Proofs_Block2.v
theories/Proofs_Block3.v
theories/Proofs_Block4.v
theories/Proofs_Block5.v
theories/Proofs_Block6.v
theories/Proofs_Bodies.v
theories/Proofs_Bodies2.v
theories/Proofs_Bodies3.v
theories/Proofs_Body.v
theories/Proofs_Body2.v
theories/Proofs_Body3.v
theories/Proofs_Body4.v
theories/Proofs_Body5.v
theories/Proofs_Body6.v
theories/Proofs_Body7.v
theories/Proofs_Box.v
theories/Proofs_Box2.v
theories/Proofs_Box3.v
theories/Proofs_Box4.v
theories/Proofs_Box5.v
theories/Proofs_Box6.v
theories/Proofs_Box7.v
theories/Proofs_Box8.v
theories/Proofs_Cache.v
theories/Proofs_Clip.v
theories/Proofs_Clip2.v
theories/Proofs_Clip3.v
theories/Proofs_Clip4.v
theories/Proofs_Clip5.v
theories/Proofs_Clip6.v
theories/Proofs_Clip7.v
theories/Proofs_Cluster.v
theories/Proofs_Cluster2.v
theories/Proofs_Components.v
theories/Proofs_Cylinder.v
theories/Proofs_Cylinder10.v
theories/Proofs_Cylinder11.v
theories/Proofs_Cylinder12.v
theories/Proofs_Cylinder2.v
theories/Proofs_Cylinder3.v
theories/Proofs_Cylinder4.v
theories/Proofs_Cylinder5.v
theories/Proofs_Cylinder6.v
theories/Proofs_Cylinder7.v
theories/Proofs_Cylinder8.v
theories/Proofs_Cylinder9.v
theories/Proofs_Dataset.v
theories/Proofs_Dataset2.v
theories/Proofs_Dataset3.v
theories/Proofs_Dataset4.v
theories/Proofs_Engine.v
theories/Proofs_Engine2.v
theories/Proofs_Engine3.v
theories/Proofs_Engine4.v
theories/Proofs_Engine5.v
theories/Proofs_Engine6.v
theories/Proofs_Engine7.v
theories/Proofs_Files.v
theories/Proofs_Files2.v
theories/Proofs_Files3.v
theories/Proofs_Files4.v
theories/Proofs_Files5.v
theories/Proofs_Fill.v
theories/Proofs_Fill2.v
theories/Proofs_Fill3.v
theories/Proofs_Fill4.v
theories/Proofs_Fill5.v
theories/Proofs_Gauss.v
theories/Proofs_Geometry.v
theories/Proofs_Green.v
theories/Proofs_Green2.v
theories/Proofs_Green3.v
theories/Proofs_Green4.v
theories/Proofs_Grid.v
theories/Proofs_Grid2.v
theories/Proofs_Grid3.v
theories/Proofs_Grid4.v
theories/Proofs_Grid5.v
theories/Proofs_Grid6.v
theories/Proofs_Grid7.v
theories/Proofs_Grid8.v
theories/Proofs_Hams.v
theories/Proofs_Hydro.v
theories/Proofs_Hydro2.v
theories/Proofs_Hydro3.v
theories/Proofs_Hydro4.v
theories/Proofs_Hydro5.v
theories/Proofs_Hydroset.v
theories/Proofs_Integrals.v
theories/Proofs_Integrals2.v
theories/Proofs_Integrals3.v
theories/Proofs_Kochin.v
theories/Proofs_LU.v
theories/Proofs_Lazy.v
theories/Proofs_Lazy2.v
theories/Proofs_Lid.v
theories/Proofs_Lid2.v
theories/Proofs_Lid3.v
theories/Proofs_Lid4.v
theories/Proofs_Lid5.v
theories/Proofs_Lid6.v
theories/Proofs_Lid7.v
theories/Proofs_Lid8.v
theories/Proofs_Lid9.v
theories/Proofs_LinSolve.v
theories/Proofs_LinSolve2.v
theories/Proofs_LowRank.v
theories/Proofs_Matrices.v
theories/Proofs_Matrices2.v
theories/Proofs_Matrices3.v
theories/Proofs_Mesh.v
theories/Proofs_Mesh2.v
theories/Proofs_Mesh3.v
theories/Proofs_Nemoh.v
theories/Proofs_Nemoh2.v
theories/Proofs_Nemoh3.v
theories/Proofs_Nemoh4.v
theories/Proofs_Normals.v
theories/Proofs_Normals2.v
theories/Proofs_Normals3.v
theories/Proofs_Normals4.v
theories/Proofs_Normals5.v
theories/Proofs_Points.v
theories/Proofs_Points2.v
theories/Proofs_Points3.v
theories/Proofs_Precond.v
theories/Proofs_Precond2.v
theories/Proofs_Precond3.v
theories/Proofs_Precond4.v
theories/Proofs_Precond5.v
theories/Proofs_Precond6.v
theories/Proofs_Precond7.v
theories/Proofs_Precond8.v
theories/Proofs_Problem.v
theories/Proofs_Problem2.v
theories/Proofs_Problem3.v
theories/Proofs_Profile.v
theories/Proofs_Prony.v
theories/Proofs_PronyGreen.v
theories/Proofs_Quadrature.v
theories/Proofs_Quality.v
theories/Proofs_Rankine.v
theories/Proofs_Rankine2.v
theories/Proofs_Rankine3.v
theories/Proofs_Rankine4.v
theories/Proofs_Rankine5.v
theories/Proofs_Rao.v
theories/Proofs_Results.v
theories/Proofs_Rigid.v
theories/Proofs_Rigid2.v
theories/Proofs_Ring.v
theories/Proofs_RootFinder.v
theories/Proofs_Scale.v
theories/Proofs_Separate.v
theories/Proofs_Slice.v
theories/Proofs_Slice2.v
theories/Proofs_Slice3.v
theories/Proofs_Slice4.v
theories/Proofs_Slice5.v
theories/Proofs_Solver.v
theories/Proofs_Solver2.v
theories/Proofs_Sphere.v
theories/Proofs_Sphere2.v
theories/Proofs_Sphere3.v
theories/Proofs_Symbolic.v
theories/Proofs_Symmetry.v
theories/Proofs_TabCache.v
theories/Proofs_TabCache2.v
theories/Proofs_Tabulation.v
theories/Proofs_Tabulation2.v
theories/Proofs_Tabulation3.v
theories/Proofs_Tabulation4.v
theories/Proofs_Tabulation5.v
theories/Proofs_Tecplot.v
theories/Proofs_Tecplot2.v
theories/Proofs_Tecplot3.v
theories/Proofs_Tecplot4.v
theories/Proofs_Tecplot5.v
theories/Proofs_TestMatrix.v
theories/Proofs_Text.v
theories/Proofs_Text2.v
theories/Proofs_Timer.v
theories/Proofs_Tree.v
theories/Proofs_Tree2.v
theories/Proofs_Warnings.v
theories/Proofs_Warnings2.v
theories/Proofs_Wave.v
theories/Props_Airy.v
theories/Props_Assembly.v
theories/Props_Bemio.v
theories/Props_Block.v
theories/Props_Bodies.v
theories/Props_Body.v
theories/Props_Boundary.v
theories/Props_Box.v
theories/Props_Cache.v
theories/Props_Clip.v
theories/Props_Cluster.v
theories/Props_Cylinder.v
theories/Props_Dataset.v
theories/Props_Engine.v
theories/Props_Files.v
theories/Props_Fill.v
theories/Props_Geometry.v
theories/Props_Green.v
theories/Props_Grid.v
theories/Props_Hams.v
theories/Props_Hydro.v
theories/Props_Hydroset.v
theories/Props_Integrals.v
theories/Props_Kochin.v
theories/Props_Lazy.v
theories/Props_Lid.v
theories/Props_LinSolve.v
theories/Props_LowRank.v
theories/Props_Matrices.v
theories/Props_Mesh.v
theories/Props_Nemoh.v
theories/Props_Normals.v
theories/Props_Points.v
theories/Props_Precond.v
theories/Props_Problem.v
theories/Props_Prony.v
theories/Props_PronyGreen.v
theories/Props_Quadrature.v
theories/Props_Quality.v
theories/Props_Rankine.v
theories/Props_Rao.v
theories/Props_Results.v
theories/Props_Rigid.v
theories/Props_Scale.v
theories/Props_Separate.v
theories/Props_Slice.v
theories/Props_Solver.v
theories/Props_Sphere.v
theories/Props_Symbolic.v
theories/Props_TabCache.v
theories/Props_Tabulation.v
theories/Props_Tecplot.v
theories/Props_TestMatrix.v
theories/Props_Timer.v
theories/Props_Tree.v
theories/Props_Warnings.v
theories/Spec_Airy.v
theories/Spec_Assembly.v
theories/Spec_Bemio.v
theories/Spec_Block.v
theories/Spec_Bodies.v
theories/Spec_Body.v
theories/Spec_Boundary.v
theories/Spec_Box.v
theories/Spec_Cache.v
theories/Spec_Clip.v
theories/Spec_Cluster.v
theories/Spec_Cylinder.v
theories/Spec_Dataset.v
theories/Spec_Engine.v
theories/Spec_Files.v
theories/Spec_Fill.v
theories/Spec_Green.v
theories/Spec_Grid.v
theories/Spec_Hams.v
theories/Spec_Hydro.v
theories/Spec_Hydroset.v
theories/Spec_Integrals.v
theories/Spec_Lazy.v
theories/Spec_Lid.v
theories/Spec_LinSolve.v
theories/Spec_LowRank.v
theories/Spec_Matrices.v
theories/Spec_Mesh.v
theories/Spec_Nemoh.v
theories/Spec_NemohFiles.v
theories/Spec_Normals.v
theories/Spec_Points.v
theories/Spec_Precond.v
theories/Spec_Problem.v
theories/Spec_Prony.v
theories/Spec_PronyGreen.v
theories/Spec_Quadrature.v
theories/Spec_Quality.v
theories/Spec_Rankine.v
theories/Spec_Rao.v
theories/Spec_Rigid.v
theories/Spec_Ring.v
theories/Spec_RoundTrip.v
theories/Spec_Scale.v
theories/Spec_Separate.v
theories/Spec_Slice.v
theories/Spec_Solver.v
theories/Spec_Symbolic.v
theories/Spec_TabCache.v
theories/Spec_Tabulation.v
theories/Spec_Tecplot.v
theories/Spec_TestMatrix.v
theories/Spec_Timer.v
theories/Spec_Tree.v
theories/Spec_Warnings.v
